(** * C85: wrappers that change a service's interface can be stacked *)
From Verif Require Import WrapStack_Model WrapStack_Spec WrapStack_Proof.
From stdpp Require Import list.
Open Scope string_scope.
Open Scope list_scope.

(** C85. Compiling a stack of modifiers panics exactly if a health check is added after a modifier that passes a context. *)
Theorem C85_panics_iff mods i : consumer_iface mods i = None ↔ health_too_late mods.
Proof.
  split; [|apply consumer_panics]. intros H. destruct (too_late_dec mods) as [?|Hn]; [done|].
  destruct (consumer_ok mods i Hn) as (own & E & _). congruence.
Qed.
Print Assumptions C85_panics_iff.
(** C85. Otherwise a consumer sees the methods that the developer wrote, with the same arguments and results, and Health if it was added. *)
Theorem C85_consumer_interface mods i :
  ¬ health_too_late mods → ∃ own, consumer_iface mods i = Some own ∧ i_base own = i_base i ∧ i_methods own = promised mods (i_methods i).
Proof.
  intros Hn. destruct (consumer_ok mods i Hn) as (own & E & Hm). exists own. split; [done|]. split; [by eapply consumer_base|done].
Qed.
Print Assumptions C85_consumer_interface.
(** C85. The generated code compiles exactly if no argument has a reserved name, no modifier is used twice, and no method is
    called like the one that is added. *)
Theorem C85_compiles_iff mods i :
  i_methods i ≠ ∅ → no_ret_args i → ¬ health_too_late mods → (∃ m, m ∈ mods ∧ m ≠ Plain) →
  compiles mods i ↔ named_args i ∧ free_names mods i ∧ once mods ∧ health_free mods i.
Proof. apply compiles_iff. Qed.
Print Assumptions C85_compiles_iff.
(** C85. Each generated struct has the methods of the interface under which it is handed on. *)
Theorem C85_implements m i own srv w :
  implements (server_struct m i) (i_methods (server_iface m i)) ∧ implements (client_struct m own srv w) (i_methods own).
Proof. split; [apply server_implements|apply client_implements]. Qed.
Print Assumptions C85_implements.
(** C85. A call through all the wrappers, whatever contexts they add, runs the service once with the caller's arguments, and the
    caller gets its results and its error; Health is answered without calling the service. *)
Theorem C85_transparent extra mods i h :
  compiles mods i → ¬ health_too_late mods → well_typed i h →
  ∃ d, deploy extra mods i (service i h) = Some d ∧
    (∀ n f args, i_methods i !! n = Some f → typed f args → d n args = Some ([(n, args)], h n args)) ∧
    (Health ∈ mods → d "Health" [] = Some ([], ([healthy], false))).
Proof.
  intros Hc Hl Hh.
  assert (Hs : ∀ n f args, i_methods i !! n = Some f → typed f args → service i h n args = Some ([(n, args)], h n args)).
  { intros n f args Hf Hty. unfold service. rewrite Hf. by rewrite decide_True. }
  destruct (transparent extra mods i (service i h) Hc Hl) as (d & Hd & H1 & H2).
  - intros n f args Hf Hty. rewrite (Hs n f) by done. specialize (Hh n f args Hf Hty). destruct (h n args) as [rs e]. by exists [(n, args)], rs, e.
  - exists d. split; [done|]. split; [|done]. intros n f args Hf Hty. rewrite (H1 n f) by done. by apply (Hs n f).
Qed.
Print Assumptions C85_transparent.

(** A service with two methods, and six modifiers *)
Definition shop : iface := Iface "Shop" "Shop"
  {[ "Buy" := Func [("item", "string"); ("count", "int64")] ["string"; "int64"]; "Ping" := Func [] [] ]}.
Definition many : list modifier := [Plain; Health; OT; Plain; XTr; GoVec].
Lemma shop_cases n f : i_methods shop !! n = Some f → f = Func [("item", "string"); ("count", "int64")] ["string"; "int64"] ∨ f = Func [] [].
Proof. cbn. rewrite lookup_insert_Some, lookup_singleton_Some. naive_solver. Qed.
Example C85_many_ok : compiles many shop ∧ ¬ health_too_late many.
Proof.
  assert (Hl : ¬ health_too_late many).
  { unfold many. rewrite !too_late_cons. unfold passes_context. intros H. pose proof not_too_late_nil. set_solver. }
  split; [|done]. apply compiles_if; [|done| | | |].
  - intros n f k Hf. destruct (shop_cases n f Hf) as [-> | ->]; cbn; [|set_solver]. rewrite !elem_of_cons, elem_of_nil. intros [H|[H|[]]]; discriminate H.
  - intros n f Hf. destruct (shop_cases n f Hf) as [-> | ->]; cbn; [|constructor]. by apply decide_nodup.
  - intros n f m x Hf Hm _ Hx. destruct (shop_cases n f Hf) as [-> | ->]; cbn in Hx; [|set_solver].
    apply elem_of_cons in Hx as [->|Hx%elem_of_list_singleton]; [|subst x]; destruct m; by apply (bool_decide_unpack _).
  - unfold once. by apply (bool_decide_unpack _).
  - intros _. done.
Qed.
(** The interface that the RPC plugin sees in between, and what consumers see *)
Example C85_many_interfaces :
  i_methods (server_side many shop) !! "Buy" =
    Some (Func [("item", "string"); ("count", "int64"); ("traceCtx", "string"); ("baggage", "string"); ("govecctx", "[]byte")]
               ["string"; "int64"; "string"; "[]byte"]) ∧
  (i_methods <$> consumer_iface many shop) = Some (<["Health" := Func [] ["string"]]> (i_methods shop)).
Proof.
  split; [by vm_compute|]. destruct (C85_consumer_interface many shop) as (own & -> & _ & E); [apply C85_many_ok|]. cbn. by rewrite E.
Qed.
Definition echo : string → list val → list val * bool := λ n args, if bool_decide (n = "Buy") then (args, true) else ([], false).
Example C85_echo_typed : well_typed shop echo.
Proof.
  intros n f args Hf Hty. cbn in Hf. apply lookup_insert_Some in Hf as [[<- <-]|[_ [<- <-]%lookup_singleton_Some]]; cbn; [|done].
  unfold typed in Hty. cbn in Hty. exact Hty.
Qed.
Example C85_call : (λ d : object, d "Buy" [Val "string" 7; Val "int64" 3]) <$> deploy (λ _ args _, length args) many shop (service shop echo) =
  Some (Some ([("Buy", [Val "string" 7; Val "int64" 3])], ([Val "string" 7; Val "int64" 3], true))).
Proof. vm_compute. done. Qed.

(** C85. So modifiers cannot be added in any order. *)
Theorem C85_any_order_refuted :
  ∃ mods mods' i, mods ≡ₚ mods' ∧ is_Some (consumer_iface mods i) ∧ consumer_iface mods' i = None.
Proof.
  exists [Health; OT], [OT; Health], shop. split; [apply perm_swap|]. split; [vm_compute; by eexists|].
  apply C85_panics_iff. exists [], OT, [], []. split; [done|]. by left.
Qed.
Print Assumptions C85_any_order_refuted.
(** C85. A service whose method has an argument called span cannot be traced. *)
Definition bridges (x : string) : iface := Iface "Bridges" "Bridges" {[ "Build" := Func [(x, "int64")] [] ]}.
Lemma bridges_ok x n f : i_methods (bridges x) !! n = Some f → f = Func [(x, "int64")] [].
Proof. cbn. rewrite lookup_singleton_Some. naive_solver. Qed.
Theorem C85_argument_names_refuted : compiles [OT] (bridges "length") ∧ ¬ compiles [OT] (bridges "span").
Proof.
  assert (Hl : ¬ health_too_late [OT]) by (rewrite too_late_cons; pose proof not_too_late_nil; set_solver).
  assert (Hr : ∀ x, String.get 0 x ≠ Some (Ascii.ascii_of_nat 114) → no_ret_args (bridges x)).
  { intros x Hx n f k ->%bridges_ok. cbn. intros H%elem_of_list_singleton. subst x. by apply Hx. }
  split.
  - apply compiles_if; [by apply Hr|done| | | |].
    + intros n f ->%bridges_ok. apply NoDup_singleton.
    + intros n f m x ->%bridges_ok ->%elem_of_list_singleton _ ->%elem_of_list_singleton. by apply (bool_decide_unpack _).
    + by apply (bool_decide_unpack _).
    + intros H. set_solver.
  - rewrite C85_compiles_iff; [|done|by apply Hr|done|exists OT; split; [set_solver|done]]. intros (_ & H & _).
    apply (H "Build" (Func [("span", "int64")] []) OT "span" eq_refl); [set_solver|done|cbn; set_solver|]. by apply (bool_decide_unpack _).
Qed.
Print Assumptions C85_argument_names_refuted.
(** C85. Nor can a service whose interface leaves its arguments unnamed. *)
Theorem C85_unnamed_arguments_refuted : ∃ i, ∀ m, m ≠ Plain → ¬ compiles [m] i.
Proof.
  exists (bridges ""). intros m Hm.
  rewrite C85_compiles_iff; [|done| | |exists m; split; [set_solver|done]].
  - intros (_ & H & _). apply (H "Build" (Func [("", "int64")] []) m "" eq_refl); [set_solver|done|cbn; set_solver|]. unfold reserved. set_solver.
  - intros n f k ->%bridges_ok. cbn. by intros H%elem_of_list_singleton.
  - rewrite too_late_cons. pose proof not_too_late_nil. set_solver.
Qed.
Print Assumptions C85_unnamed_arguments_refuted.
(** C85. A service that has a Health method of its own cannot be given another one. *)
Theorem C85_own_health_refuted : ∃ i, compiles [OT] i ∧ is_Some (consumer_iface [Health] i) ∧ ¬ compiles [Health] i.
Proof.
  exists (Iface "Self" "Self" {[ "Health" := Func [] ["string"] ]}).
  assert (Hf : ∀ n f, i_methods (Iface "Self" "Self" {[ "Health" := Func [] ["string"] ]}) !! n = Some f → f = Func [] ["string"]) by (cbn; intros n f; rewrite lookup_singleton_Some; naive_solver).
  split; [|split].
  - apply compiles_if.
    + intros n f k ->%Hf. cbn. set_solver.
    + rewrite too_late_cons; pose proof not_too_late_nil; set_solver.
    + intros n f ->%Hf. constructor.
    + intros n f m x ->%Hf. cbn. set_solver.
    + by apply (bool_decide_unpack _).
    + intros H. set_solver.
  - vm_compute. by eexists.
  - rewrite C85_compiles_iff; [|done| | |exists Health; split; [set_solver|done]].
    + intros (_ & _ & _ & H). specialize (H ltac:(set_solver)). done.
    + intros n f k ->%Hf. cbn. set_solver.
    + rewrite too_late_cons. pose proof not_too_late_nil. unfold passes_context. set_solver.
Qed.
Print Assumptions C85_own_health_refuted.
(** C85. The result variables ret0, ret1, … are reserved too, and their number depends on the other modifiers. *)
Theorem C85_ret_names_refuted : ∃ i, compiles [OT] i ∧ ¬ compiles [XTr; OT] i.
Proof.
  exists (bridges "ret0"). split.
  - split.
    + apply Forall_singleton. unfold struct_ok. cbn [server_struct s_methods s_field s_given]. rewrite app_nil_r.
      cbn [bridges i_methods]. rewrite map_to_list_singleton. cbn [map]. split; [apply NoDup_singleton|]. split; [|intros n f Hf; by exists f].
      apply Forall_singleton. split; [by apply (bool_decide_unpack _)|]. split; [by apply (bool_decide_unpack _)|].
      exists (Func [("ret0", "int64")] []). split; [by rewrite lookup_singleton|]. by repeat split.
    + destruct (client_iface_ctx OT (server_iface OT (bridges "ret0")) (bridges "ret0")) as (own & Ho & Em); [done|done|].
      exists [client_struct OT own (server_iface OT (bridges "ret0")) (server_iface OT (bridges "ret0"))].
      split; [cbn [client_structs mbind option_bind client_side server_side foldr foldl]; by rewrite Ho|].
      apply Forall_singleton. unfold struct_ok. cbn [client_struct s_methods s_field s_given]. rewrite Em.
      cbn [bridges i_methods]. rewrite map_to_list_singleton. cbn [map]. split; [apply NoDup_singleton|]. split; [|intros n f Hf; by exists f].
      apply Forall_singleton. split; [by apply (bool_decide_unpack _)|]. split; [by apply (bool_decide_unpack _)|].
      exists (extend OT (Func [("ret0", "int64")] [])). split; [by vm_compute|]. by repeat split.
  - intros [Hs _]. cbn [server_structs] in Hs. apply Forall_cons in Hs as [_ Hs]. apply Forall_singleton in Hs as (_ & Hs & _).
    cbn [server_struct s_methods s_field] in Hs. rewrite app_nil_r in Hs. cbn [server_iface bridges i_methods] in Hs.
    rewrite map_fmap_singleton, map_to_list_singleton in Hs. cbn [map] in Hs. apply Forall_singleton in Hs as (Hd & _).
    revert Hd. by apply (bool_decide_unpack _).
Qed.
Print Assumptions C85_ret_names_refuted.
(** C85. All services of one type in a module share one file for each plugin, but different modifiers need different files. *)
Theorem C85_two_stacks_refuted :
  (∀ m i j, i_base i = i_base j → m ≠ Plain → (server_file m i).1 = (server_file m j).1) ∧
  ∃ i mods mods' m c c', compiles mods i ∧ compiles mods' i ∧ (m, c) ∈ server_files mods i ∧ (m, c') ∈ server_files mods' i ∧
    c.1 = c'.1 ∧ c.2 ≠ c'.2.
Proof.
  split; [intros m i j E Hm; destruct m; try done; cbn; by rewrite E|].
  assert (Hr : no_ret_args (bridges "length")).
  { intros n f k ->%bridges_ok. cbn. by intros H%elem_of_list_singleton. }
  exists (bridges "length"), [OT], [XTr; OT], OT, (server_file OT (bridges "length")), (server_file OT (server_iface XTr (bridges "length"))).
  assert (Hc : ∀ mods, mods = [OT] ∨ mods = [XTr; OT] → compiles mods (bridges "length")).
  { intros mods Hm. apply compiles_if; [done| | | | |].
    - destruct Hm as [-> | ->]; rewrite !too_late_cons; pose proof not_too_late_nil; set_solver.
    - intros n f ->%bridges_ok. apply NoDup_singleton.
    - intros n f m x ->%bridges_ok _ _ ->%elem_of_list_singleton. destruct m; by apply (bool_decide_unpack _).
    - destruct Hm as [-> | ->]; by apply (bool_decide_unpack _).
    - intros H. destruct Hm as [-> | ->]; set_solver. }
  split; [apply Hc; by left|]. split; [apply Hc; by right|]. split; [cbn; set_solver|]. split; [cbn; set_solver|]. split; [done|].
  intros E. apply (f_equal (λ ms : gmap string func, f_args <$> ms !! "Build")) in E. vm_compute in E. discriminate.
Qed.
Print Assumptions C85_two_stacks_refuted.
