(** * More properties of pointers (C10): adding to namespaces, the pointer property, visibility metadata *)
From Verif Require Import Pointer_Model Pointer_Spec Wiring_Proof Pointer_Proof Pointer_Props.

(** C10. A definition that is a pointer can be recognised as such: its "ptr" property is the pointer. *)
Theorem C10_pointer_is_recorded : ∀ fuel s name dst ty uniq os,
  let st' := prun name (create_pointer fuel s name dst ty uniq) os in
  name ∉ own_names name (src_added os) → (∀ o, o ∈ os → name ∉ touches name o) →
  get_property (ws st') name "ptr" = Some (Some (VPtr name)).
Proof.
  intros fuel s name dst ty uniq os st' Hn Ht.
  destruct (prun_frame name os (create_pointer fuel s name dst ty uniq) name []) as (E & _ & _); [done|done|apply create_tail|].
  fold st' in E. unfold get_property. rewrite E. unfold create_pointer.
  assert (∀ w : wspec, sp_defs (step w (OSetProperty name "ptr" (VPtr name))) !! name ≫=
    (λ d, Some match default [] (wd_props d !! "ptr") with [v] => Some v | _ => None end) = Some (Some (VPtr name))) as H.
  { intros w. simpl. unfold set_property, get_def_create. destruct (sp_defs w !! name); simpl; rewrite lookup_insert; simpl; by rewrite lookup_insert. }
  destruct uniq as [vis|]; [destruct (require_uniqueness _ _ _) as [s1 e]|]; unfold do_ops; cbn [ws fold_left]; apply H.
Qed.
Print Assumptions C10_pointer_is_recorded.

(** The metadata node of the uniqueness check is defined with the visibility that was asked for as its type,
    so that it is built in the namespaces that accept that type (C11). *)
Theorem C10_visibility_is_defined : ∀ fuel s name dst ty vis os d,
  let st' := prun name (create_pointer fuel s name dst ty (Some vis)) os in
  let md := (dst +:+ ".visibility")%string in
  get_def fuel (step s (OAlias (name +:+ ".dst") dst)) dst = Some (Some d) →
  name ≠ md → (∀ o, o ∈ os → md ∉ touches name o) →
  ∃ d', sp_defs (ws st') !! md = Some d' ∧ wd_build d' = Some (BMeta md) ∧ wd_type d' = Some vis.
Proof.
  intros fuel s name dst ty vis os d st' md Hd Hname Ht.
  assert (∀ ms, md ∉ own_names name ms) as Hown.
  { intros ms. unfold own_names, md. rewrite elem_of_cons, elem_of_list_fmap. intros [E|(m & E & _)]; apply (f_equal (slast Ascii.zero)) in E; by rewrite !slast_app in E. }
  destruct (prun_frame name os (create_pointer fuel s name dst ty (Some vis)) md []) as (E & _ & _); [apply Hown|done|apply create_tail|].
  fold st' in E. rewrite E. destruct (create_frame fuel s name dst ty vis md) as [-> _]; [|done|].
  { intros E'. apply (Hown []). rewrite E'. by left. }
  set (s1 := step s (OAlias (name +:+ ".dst") dst)) in *.
  assert (get_alias s1 (name +:+ ".dst") = Some dst) as Ha by apply alias_at.
  unfold require_uniqueness. rewrite Ha, Hd. cbn [fst do_ops fold_left]. fold md.
  pose proof (step_define_at s1 md (Some vis) (Some (BMeta md)) None VOther) as (d' & Hd' & H1 & H2).
  exists d'. split; [|by rewrite H1, H2]. do 2 (rewrite step_defs_ne; [|simpl; intros E'; apply (f_equal (slast Ascii.zero)) in E'; unfold md in E'; by rewrite !slast_app in E']). exact Hd'.
Qed.
Print Assumptions C10_visibility_is_defined.

(** The value [v] is among the children of [ns]. *)
Definition child (s : wspec) (ns : string) (v : pval) : Prop := ∃ l, get_properties s ns "Children" = Some l ∧ v ∈ l.
(** Calls that forget children: an alias of that name, or overwriting the property. *)
Definition forgets (ns : string) (o : wop) : Prop :=
  match o with OAlias a _ => a = ns | OSetProperty n k _ => n = ns ∧ k = "Children" | _ => False end.

Lemma child_step s ns v o : ¬ forgets ns o → child s ns v → child (step s o) ns v.
Proof.
  intros Hf (l & Hl & Hv). unfold get_properties in Hl. destruct (sp_defs s !! ns) as [d|] eqn:Hd; [|done]. injection Hl as <-.
  unfold child, get_properties.
  destruct (decide (op_name o = ns)) as [E|E]; [|rewrite step_defs_ne by done; rewrite Hd; eauto].
  destruct o as [n t b op c|a p|n k w|n k w]; simpl in *; subst.
  - unfold define, get_def_create. rewrite Hd. simpl. rewrite lookup_insert. simpl. rewrite lookup_insert_ne by done. eauto.
  - by destruct Hf.
  - unfold set_property, get_def_create. rewrite Hd. simpl. rewrite lookup_insert. simpl. rewrite lookup_insert_ne; [eauto|]. naive_solver.
  - unfold add_property, get_def_create. rewrite Hd. simpl. rewrite lookup_insert. simpl.
    destruct (decide (k = "Children")) as [->|]; [|rewrite lookup_insert_ne by done; eauto].
    rewrite lookup_insert. simpl. eexists. split; [done|]. apply elem_of_app. by left.
Qed.
Lemma child_steps os : ∀ s ns v, (∀ o, o ∈ os → ¬ forgets ns o) → child s ns v → child (do_ops s os) ns v.
Proof.
  induction os as [|o os IH]; intros s ns v Hf H; [done|]. cbn [do_ops fold_left]. apply IH; [intros; apply Hf; by right|].
  apply child_step; [apply Hf; by left|done].
Qed.
Lemma child_pstep name st ns v o ms : ns ∉ own_names name (ms ++ src_added [o]) → p_tail (pt st) ∈ own_names name ms →
  (∀ w, o = PWiring w → ¬ forgets ns w) → child (ws st) ns v → child (ws (pstep name st o)) ns v.
Proof.
  intros Hns Htail Hf H.
  assert (p_tail (pt st) ≠ ns) as Hne.
  { intros <-. apply Hns. revert Htail. unfold own_names. rewrite !elem_of_cons, !elem_of_list_fmap. intros [?|(z & ? & ?)]; [by left|right]. exists z. set_solver. }
  destruct o as [m|m b|a|ns' ty|o]; cbn [pstep].
  - unfold add_src. cbn [ws]. apply child_steps; [|done]. intros o. rewrite elem_of_cons, elem_of_list_singleton. intros [->| ->]; [done|].
    simpl. intros <-. apply Hns. simpl. rewrite own_snoc. set_solver.
  - unfold add_dst. cbn [ws]. destruct b; [|done]. by apply child_step.
  - unfold add_addr. destruct (get_address (ws st) a) as [t|]; [|done]. cbn [ws pt add_dst p_tail]. apply child_step; [done|]. by apply child_step.
  - unfold add_to. cbn [ws add_dst]. apply child_steps; [|done]. intros o. rewrite elem_of_cons, elem_of_list_singleton. intros [->| ->]; by intros [].
  - cbn [ws]. apply child_step; [by apply Hf|done].
Qed.
Lemma child_prun name os : ∀ st ns v ms, ns ∉ own_names name (ms ++ src_added os) → p_tail (pt st) ∈ own_names name ms →
  (∀ w, PWiring w ∈ os → ¬ forgets ns w) → child (ws st) ns v → child (ws (prun name st os)) ns v.
Proof.
  induction os as [|o os IH]; intros st ns v ms Hns Htail Hf H; [done|].
  change (o :: os) with ([o] ++ os) in Hns. rewrite src_added_app, app_assoc in Hns.
  assert (∀ x l l', x ∈ own_names name l → x ∈ own_names name (l ++ l')) as Hsub.
  { intros x l l'. unfold own_names. rewrite !elem_of_cons, !elem_of_list_fmap. intros [?|(z & ? & ?)]; [by left|right]. exists z. set_solver. }
  assert (ns ∉ own_names name (ms ++ src_added [o])) as Hns1. { intros Hx. apply Hns. by apply Hsub. }
  change (prun name st (o :: os)) with (prun name (pstep name st o) os). apply (IH _ _ _ (ms ++ src_added [o])); [done| |intros; apply Hf; by right|].
  - clear -Htail Hsub. destruct o as [m|m b|a|ns' ty|o]; cbn [pstep]; try (by apply Hsub).
    + simpl. rewrite own_snoc. set_solver.
    + unfold add_addr. destruct (get_address (ws st) a); by apply Hsub.
  - eapply child_pstep; [done|done| |done]. intros w ->. apply Hf. by left.
Qed.

(** Putting the pointer into a namespace: the name "pointer.namespace" enters the namespace and gets from
    within it what was the first node of the server side so far; that node is made a child of the namespace
    (which gets all its children, C49); and the name is a proxy: what it builds is not added to the enclosing
    namespace, having been added elsewhere. *)
Theorem C10_added_to_namespace : ∀ fuel s name dst ty uniq os1 ns nty os2,
  let st := create_pointer fuel s name dst ty uniq in
  let os := os1 ++ PAddTo ns nty :: os2 in
  let st' := prun name st os in
  let m := (name +:+ "." +:+ ns)%string in
  let first := List.last (dst_added name st os1) (original_dst name dst uniq) in
  NoDup (src_added os) → undisturbed name os →
  ((∀ o, o ∈ os2 → m ∉ touches name o) →
     ∃ d, sp_defs (ws st') !! m = Some d ∧ wd_type d = Some nty ∧ wd_build d = Some (BEnter ns first) ∧ wo_proxy (wd_opts d) = true) ∧
  ((∀ w, PWiring w ∈ os2 → ¬ forgets ns w) → child (ws st') ns (VName first)).
Proof.
  intros fuel s name dst ty uniq os1 ns nty os2 st os st' m first Hnd Hu.
  assert (∀ x l l', x ∈ own_names name l → x ∈ own_names name (l ++ l')) as Hsub.
  { intros x l l'. unfold own_names. rewrite !elem_of_cons, !elem_of_list_fmap. intros [?|(z & ? & ?)]; [by left|right]. exists z. set_solver. }
  assert (src_added os = src_added os1 ++ src_added os2) as Hsrc.
  { unfold os. rewrite src_added_app. done. }
  assert (inv name (original_dst name dst uniq) (prun name st os1) (src_added os1) (dst_added name st os1) (ifaces name st os1)) as Hi.
  { apply (inv_run name _ os1 st [] [] []); [| |apply inv_create].
    - rewrite Hsrc in Hnd. by apply NoDup_app in Hnd as [? _].
    - intros o n Ho Hn Hin. apply (Hu o n); [apply elem_of_app; by left|done|]. rewrite Hsrc. by apply Hsub. }
  assert (m ∉ own_names name (src_added os) ∧ ns ∉ own_names name (src_added os)) as [Hm Hns].
  { split; apply (Hu (PAddTo ns nty)); try (apply elem_of_app; right; by left); simpl; rewrite !elem_of_cons; auto. }
  assert (ns ≠ m) as Hne.
  { intros E. apply (f_equal String.length) in E. unfold m in E. rewrite !slen_app in E. simpl in E. lia. }
  assert (st' = prun name (add_to (prun name st os1) name ns nty) os2) as ->.
  { unfold st', os, prun. rewrite foldl_app. done. }
  destruct Hi as [_ _ [l Hl] _ _ _ Hdh _]. revert Hdh Hl. generalize (prun name st os1). intros st1 Hdh Hl.
  assert (p_tail (pt (add_to st1 name ns nty)) ∈ own_names name (src_added os1)) as Htail. { simpl. rewrite Hl. set_solver. }
  split.
  - intros Ht. destruct (prun_frame name os2 (add_to st1 name ns nty) m (src_added os1)) as (-> & _ & _); [by rewrite <- Hsrc|done|done|].
    unfold add_to. cbn [ws do_ops fold_left]. rewrite step_defs_ne by (simpl; done). rewrite Hdh. fold first m.
    simpl. unfold define. destruct (get_def_create _ _) as [d s1]. simpl. rewrite lookup_insert. eexists. split; [done|]. done.
  - intros Hf. apply (child_prun _ _ _ _ _ (src_added os1)); [by rewrite <- Hsrc|done|done|].
    unfold add_to. cbn [ws do_ops fold_left]. rewrite Hdh. fold first m. generalize (step (ws (add_dst st1 m false)) (ODefine m (Some nty) (Some (BEnter ns first)) (Some (WOpts None true)) VOther)).
    intros w. unfold child, get_properties. simpl. unfold add_property, get_def_create.
    destruct (sp_defs w !! ns) as [d|]; simpl; rewrite lookup_insert; simpl; rewrite lookup_insert; simpl; eexists; (split; [done|]); set_solver.
Qed.
Print Assumptions C10_added_to_namespace.
Example C10_added_to_namespace_nonvacuous :
  ex_ops = (PSrc "leaf.retry" :: PWiring (ODefine "leaf.retry" (Some 1) (Some (BUser 8)) None VOther) ::
    PDst "leaf.trace" true :: PSrc "leaf.tracecli" ::
    (PWiring <$> address_define "leaf.addr" "leaf.server" "leaf.bind_addr" "leaf.dial_addr" (Some 0)) ++
    [PAddr "leaf.addr"; PSrc "leaf.rpccli"]) ++ PAddTo "proc" 3 :: [] ∧
  get_properties (ws ex_st) "proc" "Children" = Some [VName "leaf.server"] ∧
  (wd_build <$> sp_defs (ws ex_st) !! "leaf.proc") = Some (Some (BEnter "proc" "leaf.server")) ∧
  get_property (ws ex_st) "leaf" "ptr" = Some (Some (VPtr "leaf")) ∧
  (wd_type <$> sp_defs (ws ex_st) !! "leaf.impl.visibility") = Some (Some 0).
Proof. by vm_compute. Qed.
