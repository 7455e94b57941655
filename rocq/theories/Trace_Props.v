(** * Properties of traces *)
From Verif Require Export Trace_Proof.
Set Default Proof Using "Type".
Open Scope string_scope.
Open Scope list_scope.

(** A context is valid exactly if both identifiers have some byte that is not zero. *)
Theorem C69_valid_means_not_all_zero (c : sc) :
  sc_valid c = true ↔ (∃ a, a ∈ sc_trace c ∧ a ≠ zero) ∧ (∃ a, a ∈ sc_span c ∧ a ≠ zero).
Proof.
  assert (∀ b, nonzero b = true ↔ ∃ a, a ∈ b ∧ a ≠ zero) as H.
  { intros b. unfold nonzero. rewrite existsb_exists. split.
    - intros (a & Ha & Hn). exists a. split; [by apply elem_of_list_In|]. intros ->. by rewrite Ascii.eqb_refl in Hn.
    - intros (a & Ha & Hn). exists a. split; [by apply elem_of_list_In|]. destruct (Ascii.eqb_spec a zero); done. }
  unfold sc_valid. rewrite andb_true_iff. by rewrite !H.
Qed.

(** ** An example: spans numbered in two bytes, and a fixed layout in place of JSON *)
Definition num_bytes (n : nat) : bytes := [ascii_of_nat (n / 256); ascii_of_nat (n mod 256)].
Definition ex_tracer : tracer := {|
  enc t := t_trace t ++ t_span t ++ t_flags t ++ [if t_remote t then one else zero] ++ t_state t;
  dec t := Some (TCtx (take 32 t) (take 16 (drop 32 t)) (take 2 (drop 48 t)) (drop 51 t)
                      (match drop 50 t with a :: _ => Ascii.eqb a one | [] => false end));
  ts_ok _ := true;
  new_tid n := one :: replicate 13 zero ++ num_bytes n;
  new_sid n := one :: replicate 5 zero ++ num_bytes n |}.
Lemma ex_tracer_ok : tracer_ok ex_tracer.
Proof.
  split.
  - intros c H1 H2 _. cbn [ex_tracer enc dec t_trace t_span t_flags t_state t_remote]. f_equal.
    pose proof (hex_length (sc_trace c)) as L1. pose proof (hex_length (sc_span c)) as L2.
    pose proof (hex_length [sc_flags c]) as L3. rewrite H1 in L1. rewrite H2 in L2. change (length [sc_flags c]) with 1 in L3.
    set (a := hex (sc_trace c)) in *. set (b := hex (sc_span c)) in *. set (f := hex [sc_flags c]) in *.
    assert (∀ l, drop 48 (a ++ b ++ l) = l) as D48.
    { intros l. rewrite (assoc_L (++)), drop_app_alt; [done|]. rewrite app_length. lia. }
    f_equal.
    + rewrite take_app_alt; [done|lia].
    + rewrite drop_app_alt by lia. rewrite take_app_alt; [done|lia].
    + rewrite D48. rewrite take_app_alt; [done|lia].
    + change 51 with (48 + 3). rewrite <- drop_drop, D48, drop_app_ge by lia. rewrite L3. done.
    + change 50 with (48 + 2). rewrite <- drop_drop, D48, drop_app_alt by lia. by destruct (sc_remote c).
  - intros t. cbn. intros E%(f_equal length). rewrite !app_length in E. simpl in E. lia.
  - done.
  - done.
  - done.
Qed.
Lemma ex_distinct n : n ≤ 256 → no_collision ex_tracer n.
Proof.
  intros Hn i j Hi Hj.
  assert (num_bytes i = num_bytes j → i = j) as H.
  { intros E. unfold num_bytes in E. apply (f_equal (map nat_of_ascii)) in E. cbn [map] in E.
    rewrite !nat_ascii_embedding in E; [|first [apply Nat.mod_upper_bound; lia|apply Nat.div_lt_upper_bound; lia]..].
    assert (i / 256 = j / 256 ∧ i mod 256 = j mod 256) as [E1 E2] by (split; congruence).
    pose proof (Nat.div_mod i 256 ltac:(done)) as Ei. pose proof (Nat.div_mod j 256 ltac:(done)) as Ej.
    by rewrite Ei, E1, E2, <- Ej. }
  split; intros E; apply H; cbn [ex_tracer new_tid new_sid] in E;
    apply (f_equal tail) in E; cbn [tail] in E; by apply app_inv_head in E.
Qed.

(** ** C69: a span context gets through to the server unchanged *)
(** What GetSpanContext makes of what MarshalJSON wrote: the same span context, if it is one *)
Theorem C69_span_context_round_trip T c :
  tracer_ok T → length (sc_trace c) = 16 → length (sc_span c) = 8 → ts_ok T (sc_state c) = true →
  get_span_context T (marshal T c) = if sc_valid c then Ok c else Err.
Proof. intros HT H1 H2 H3. by apply get_marshal. Qed.
Example C69_span_context_round_trip_nonvacuous :
  let c := SC (new_tid ex_tracer 3) (new_sid ex_tracer 7) one ["a"%char; "="%char; "b"%char] true in
  get_span_context ex_tracer (marshal ex_tracer c) = Ok c ∧
  get_span_context ex_tracer (marshal ex_tracer sc_zero) = Err.
Proof. split; by rewrite C69_span_context_round_trip by (done || apply ex_tracer_ok). Qed.
Print Assumptions C69_span_context_round_trip.

(** Whatever text arrives: an accepted text has valid identifiers of the right size, given by lower-case digits, and a valid
    trace state.  *)
Theorem C69_accepted_contexts_are_valid T t c :
  get_span_context T t = Ok c →
  sc_valid c = true ∧ length (sc_trace c) = 16 ∧ length (sc_span c) = 8 ∧ ts_ok T (sc_state c) = true ∧
  ∃ j, dec T t = Some j ∧ sc_state c = t_state j ∧ sc_remote c = t_remote j ∧
       unhex (t_trace j) = Some (sc_trace c) ∧ unhex (t_span j) = Some (sc_span c) ∧
       ∃ rest, unhex (t_flags j) = Some (sc_flags c :: rest).
Proof.
  assert (∀ b x, unhex b = Some x → length b = 2 * length x) as Hl.
  { fix IH 1. intros [|a [|d b]] x H; [by injection H as <-|done|]. simpl in H.
    destruct (unhex_digit a), (unhex_digit d); [|done|done|done]. destruct (unhex b) as [y|] eqn:E; [|done].
    injection H as <-. simpl. rewrite (IH _ _ E). lia. }
  assert (∀ n b x, id_from_hex n b = Some x → unhex b = Some x ∧ length x = n ∧ nonzero x = true) as Hid.
  { intros n b x. unfold id_from_hex. destruct (bool_decide _) eqn:E; [|done]. apply bool_decide_eq_true in E.
    destruct (forallb lower_hex b); [|done]. simpl. destruct (unhex b) as [y|] eqn:Ey; [|done].
    destruct (nonzero y) eqn:En; [|done]. intros [= ->]. specialize (Hl _ _ Ey). split_and!; [done|lia|done]. }
  unfold get_span_context. destruct (dec T t) as [j|]; [|done].
  destruct (id_from_hex 16 (t_trace j)) as [a|] eqn:Ea; [|done].
  destruct (id_from_hex 8 (t_span j)) as [b|] eqn:Eb; [|done].
  destruct (unhex (t_flags j)) as [[|f rest]|] eqn:Ef; [done| |done].
  destruct (ts_ok T (t_state j)) eqn:Ets; [|done]. intros [= <-]. simpl.
  destruct (Hid _ _ _ Ea) as (Ha & La & Na), (Hid _ _ _ Eb) as (Hb & Lb & Nb).
  unfold sc_valid. simpl. rewrite Na, Nb. split_and!; try done. exists j. split_and!; try done. by exists rest.
Qed.
Example C69_accepted_contexts_are_valid_nonvacuous :
  ∃ c, get_span_context ex_tracer (marshal ex_tracer (SC (new_tid ex_tracer 3) (new_sid ex_tracer 7) one [] false)) = Ok c.
Proof. eexists. by rewrite C69_span_context_round_trip by (done || apply ex_tracer_ok). Qed.
Print Assumptions C69_accepted_contexts_are_valid.

(** A text makes the server panic exactly if it has valid identifiers and no trace flags. *)
Theorem C69_panics_exactly_without_flags T t :
  get_span_context T t = Panic ↔
  ∃ j, dec T t = Some j ∧ is_Some (id_from_hex 16 (t_trace j)) ∧ is_Some (id_from_hex 8 (t_span j)) ∧ t_flags j = [].
Proof.
  unfold get_span_context. split.
  - destruct (dec T t) as [j|]; [|done]. destruct (id_from_hex 16 _) eqn:Ea; [|done]. destruct (id_from_hex 8 _) eqn:Eb; [|done].
    destruct (unhex (t_flags j)) as [[|f rest]|] eqn:Ef; [|by destruct (ts_ok T _)|done]. intros _. exists j.
    split_and!; eauto. destruct (t_flags j) as [|a [|d b]]; [done|done|]. simpl in Ef.
    destruct (unhex_digit a), (unhex_digit d); [|done|done|done]. by destruct (unhex b).
  - intros (j & -> & [a ->] & [b ->] & ->). done.
Qed.
Definition ex_flagless : tctx := TCtx (hex (new_tid ex_tracer 1)) (hex (new_sid ex_tracer 1)) [] [] false.
(** So the claim that a server survives every text is false. *)
Theorem C69_servers_survive_all_texts_refuted :
  ¬ (∀ T t, tracer_ok T → get_span_context T t ≠ Panic).
Proof.
  intros H.
  set (T := Tracer (enc ex_tracer) (λ t, if decide (t = []) then Some ex_flagless else dec ex_tracer t)
                   (ts_ok ex_tracer) (new_tid ex_tracer) (new_sid ex_tracer)).
  apply (H T []).
  - destruct ex_tracer_ok as [J E S Ti Si]. split; try done. intros c H1 H2 H3 t.
    change (dec T (enc ex_tracer t) = Some t). unfold T. cbn [dec]. rewrite decide_False by apply E. by apply J.
  - apply C69_panics_exactly_without_flags. exists ex_flagless. split; [done|]. split; [|split; [|done]].
    + cbn [ex_flagless t_trace]. rewrite id_from_hex_hex by done. by eexists.
    + cbn [ex_flagless t_span]. rewrite id_from_hex_hex by done. by eexists.
Qed.
Print Assumptions C69_panics_exactly_without_flags.
Print Assumptions C69_servers_survive_all_texts_refuted.

(** ** C70: the collected spans are the calls *)
Section labels.
Context {A B : Type} (f : A → B).
Lemma ltree_ind' (P : ltree A → Prop) : (∀ i n e ks, Forall P ks → P (LNode i n e ks)) → ∀ t, P t.
Proof.
  intros H. fix IH 1. intros [i n e ks]. apply H. induction ks as [|t ks IHk]; [constructor|]. constructor; [apply IH|exact IHk].
Qed.
Lemma erase_lmap t : erase (lmap f t) = erase t.
Proof.
  induction t as [i n e ks IH] using ltree_ind'. simpl. f_equal. rewrite map_map.
  induction IH as [|t ks Ht _ IHk]; [done|]. simpl. by rewrite Ht, IHk.
Qed.
Lemma ids_lmap t : ids (lmap f t) = map f (ids t).
Proof.
  induction t as [i n e ks IH] using ltree_ind'. simpl. f_equal. rewrite map_map.
  induction IH as [|t ks Ht _ IHk]; [done|]. simpl. by rewrite Ht, map_app, IHk.
Qed.
End labels.

Lemma NoDup_map_below {A} (f : nat → A) N (l : list nat) :
  (∀ i j, i < N → j < N → f i = f j → i = j) → Forall (λ k, k < N) l → NoDup l → NoDup (map f l).
Proof.
  intros Hf. induction l as [|k l IH]; intros HF HD; [constructor|].
  inversion_clear HF as [|? ? Hk Hl]. inversion_clear HD as [|? ? Hni Hnd]. simpl. constructor; [|by apply IH].
  intros (j & Ej & Hj)%elem_of_list_fmap. rewrite Forall_forall in Hl. by rewrite (Hf k j Hk (Hl _ Hj) Ej) in Hni.
Qed.
Lemma roots_sub {A} (ts : list (ltree A)) : sublist (map root ts) (concat (map ids ts)).
Proof. induction ts as [|[i n e ks] ts IH]; simpl; [constructor|]. apply sublist_skip. by apply sublist_inserts_l. Qed.

Lemma NoDup_sublist {A} (l k : list A) : sublist l k → NoDup k → NoDup l.
Proof.
  induction 1 as [|x l k H IH|x l k H IH]; intros Hk; [done| |]; inversion_clear Hk as [|? ? Hx Hk'].
  - constructor; [|by apply IH]. intros Hin. apply Hx. eapply elem_of_submseteq; [exact Hin|]. by apply sublist_submseteq.
  - by apply IH.
Qed.

(** For every application, deployment and program of calls and log statements, with any failures: the spans that reach the
    collector are, with distinct identifiers, exactly those of [traces]: the span of each call is the child of the span of
    the handler (or client) that made it, with its events in order, all of a request in one trace, and different requests
    in different traces.  No span stays open. *)
Theorem C70_spans_are_the_calls T C l :
  tracer_ok T →
  let s := run_all T C l background st_init in
  no_collision T (st_next s) →
  ∃ ts : list (bytes * ltree bytes),
    map (λ t, erase t.2) ts ≡ₚ traces C l ∧
    map row_of (st_done s) ≡ₚ concat (map (λ t, rows t.1 None t.2) ts) ∧
    NoDup (map fst ts) ∧ NoDup (concat (map (λ t, ids t.2) ts)) ∧
    st_open s = ∅ ∧ st_crash s = false.
Proof.
  intros HT s HN.
  destruct (run_all_post T HT (st_next s) HN C l background st_init) as (ks & ap & new & E1 & E2 & Ho & Hd & Hr & Hc & Hn & Hf & _).
  { apply Forall_forall. intros a _ x s0. by apply run_post. }
  { by apply background_ok. }
  { intros i p. simpl. by rewrite lookup_empty. }
  { done. }
  fold s in Ho, Hd, Hc, Hf. simpl in *.
  exists (map (λ t, (new_tid T (root t), lmap (new_sid T) t)) (ks ++ ap)). rewrite !map_map. simpl.
  assert (Forall (λ k, k < st_next s) (concat (map ids (ks ++ ap)))) as Hlt.
  { eapply Forall_impl; [exact Hf|]. simpl. lia. }
  split; [|split; [|split; [|split; [|split]]]].
  - replace (map (λ t, erase (lmap (new_sid T) t)) (ks ++ ap)) with (map erase (ks ++ ap)) by (apply map_ext; intros t; by rewrite erase_lmap).
    rewrite map_app, E1, E2. unfold traces. clear. induction l as [|a l IH]; [done|]. simpl. rewrite <- IH. solve_Permutation.
  - rewrite Hd, Hr, <- concat_app, <- map_app. done.
  - rewrite <- (map_map root (new_tid T)). apply (NoDup_map_below _ (st_next s)).
    + intros i j Hi Hj. by apply HN.
    + apply Forall_forall. intros k Hk. rewrite Forall_forall in Hlt. apply Hlt.
      eapply elem_of_submseteq; [exact Hk|]. apply sublist_submseteq, roots_sub.
    + eapply NoDup_sublist; [apply roots_sub|done].
  - replace (concat (map (λ t, ids (lmap (new_sid T) t)) (ks ++ ap))) with (map (new_sid T) (concat (map ids (ks ++ ap)))).
    + apply (NoDup_map_below _ (st_next s)); [|done|done]. intros i j Hi Hj. by apply HN.
    + rewrite concat_map, map_map. f_equal. apply map_ext. intros t. by rewrite ids_lmap.
  - done.
  - done.
Qed.

(** A frontend that is not instrumented calls "a" (in its process), which logs, calls "b" (over the network, without client
    spans, request lost once) and, through the uninstrumented "u", "c". *)
Definition ex_cfg : cfg := {|
  inst s := if decide (s = "a") then Some true else if decide (s = "b") then Some false
            else if decide (s = "c") then Some true else None;
  remote s := negb (bool_decide (s = "a"));
  iface s := s; base s := s |}.
Definition ex_prog : list act :=
  [Log Info "dropped";
   Call "a" "M" Delivered
     [Log Warn "1"; Call "b" "N" RequestLost [Log Info "never"] false; Call "b" "N" Delivered [Log Debug "2"] true;
      Call "u" "O" Delivered [Call "c" "P" ResponseLost [] false] false] false].
Definition ex_traces : list tree :=
  [Node "aClient_M" [] [Node "aServer_M" [EvLog Warn "1"; EvErr; EvErr] [Node "bServer_N" [EvLog Debug "2"; EvErr] []]];
   Node "cClient_P" [EvErr] [Node "cServer_P" [] []]].
Example C70_spans_are_the_calls_nonvacuous :
  let s := run_all ex_tracer ex_cfg ex_prog background st_init in
  no_collision ex_tracer (st_next s) ∧ st_next s = 5 ∧ traces ex_cfg ex_prog = ex_traces ∧
  map s_name (st_done s) = ["bServer_N"; "cServer_P"; "cClient_P"; "aServer_M"; "aClient_M"].
Proof.
  assert (st_next (run_all ex_tracer ex_cfg ex_prog background st_init) = 5) as E by (by vm_compute).
  cbv zeta. rewrite E. split; [apply ex_distinct; lia|]. split; [done|]. split; by vm_compute.
Qed.
Print Assumptions C70_spans_are_the_calls.

(** The wrappers hand on what the call returns: an error exactly if the callee returned one or the network failed. *)
Theorem C70_errors_are_handed_on T C a x s :
  tracer_ok T → length (sc_trace (c_sc x)) = 16 → length (sc_span (c_sc x)) = 8 → ts_ok T (sc_state (c_sc x)) = true →
  (run T C a x s).2 = errs C a.
Proof.
  intros HT H1 H2 H3. destruct a as [l m|svc meth n body fails]; [done|]. rewrite run_call. cbn [errs].
  set (h := λ x s, (run_all T C body x s, fails)).
  assert (∀ y z s, sized T (c_sc y) → (server_wrapper T C svc meth h z (marshal T (c_sc y)) s).2 = fails) as Hs.
  { intros y z s' Hy. unfold server_wrapper. rewrite decide_False by apply (ok_enc T HT). rewrite get_marshal by done.
    destruct (sc_valid (c_sc y)); by destruct (start T _ _ s'). }
  assert (∀ y s, sized T (c_sc y) →
    (transport C svc n (λ x, server_wrapper T C svc meth h x (marshal T (c_sc y))) y s).2 =
    (fails || remote C svc && match n with Delivered => false | _ => true end)) as Ht.
  { intros y s' Hy. unfold transport. destruct (remote C svc); [destruct n|]; simpl;
      rewrite ?orb_false_r, ?orb_true_r; try done; by apply Hs. }
  destruct (inst C svc) as [[]|].
  - unfold client_wrapper. set (m := (base C svc +:+ "Client_" +:+ meth)).
    assert (sized T (c_sc (start T x m s).1)) as Hx.
    { destruct (ok_tid T HT (st_next s)) as [? _], (ok_sid T HT (st_next s)) as [? _].
      unfold start, sized. simpl. split_and!; [by destruct (nonzero _)|done|done]. }
    destruct (start T x m s) as [x1 s1]. simpl in Hx. specialize (Ht x1 s1 Hx).
    destruct (transport C svc n _ x1 s1) as [s2 e]. done.
  - unfold client_wrapper. specialize (Ht x s ltac:(done)). destruct (transport C svc n _ x s) as [s2 e]. done.
  - unfold transport. destruct (remote C svc); [destruct n|]; simpl; rewrite ?orb_false_r, ?orb_true_r; done.
Qed.
Example C70_errors_are_handed_on_nonvacuous :
  (run ex_tracer ex_cfg (Call "c" "P" ResponseLost [] false) background st_init).2 = true ∧
  (run ex_tracer ex_cfg (Call "b" "N" Delivered [] true) background st_init).2 = true ∧
  (run ex_tracer ex_cfg (Call "b" "N" Delivered [] false) background st_init).2 = false.
Proof. split_and!; by rewrite C70_errors_are_handed_on by (done || apply ex_tracer_ok). Qed.
Print Assumptions C70_errors_are_handed_on.

(** If all services are instrumented, where they run makes no difference to the spans. *)
Theorem C70_deployment_does_not_matter T C r l x s :
  tracer_ok T →
  Forall (λ svc, inst C svc ≠ None) (concat (map called l)) → Forall undisturbed l →
  run_all T (Cfg (inst C) r (iface C) (base C)) l x s = run_all T C l x s.
Proof.
  intros HT. set (C' := Cfg (inst C) r (iface C) (base C)).
  assert (∀ a x s, Forall (λ svc, inst C svc ≠ None) (called a) → undisturbed a → run T C' a x s = run T C a x s) as Ha.
  { intros a. induction a as [v m|svc meth n body fails IH] using act_ind'; intros x' s' Hc Hu; [done|].
    destruct Hu as [-> Hu]. simpl in Hc. inversion_clear Hc as [|? ? Hi Hc'].
    assert (∀ x s, run_all T C' body x s = run_all T C body x s) as Hb.
    { intros y. unfold run_all. clear Hi. induction IH as [|b body Hb _ IHb]; intros s1; [done|]. simpl in *.
      apply Forall_app in Hc' as [Hc1 Hc2]. destruct Hu as [Hu1 Hu2]. rewrite Hb by done. by apply IHb. }
    rewrite !run_call. cbv zeta. change (inst C' svc) with (inst C svc).
    destruct (inst C svc) as [gen|] eqn:Ei; [|done].
    unfold client_wrapper. change (base C' svc) with (base C svc).
    assert (∀ y z z' s, server_wrapper T C' svc meth (λ x s, (run_all T C' body x s, fails)) z (marshal T (c_sc y)) s =
                      server_wrapper T C svc meth (λ x s, (run_all T C body x s, fails)) z' (marshal T (c_sc y)) s) as Hs.
    { intros y z z' s1. unfold server_wrapper. rewrite !(decide_False (P := marshal T _ = [])) by apply (ok_enc T HT).
      destruct (get_span_context T _); [| |done]; change (iface C' svc) with (iface C svc);
        destruct (start T _ _ s1) as [x2 s2]; by rewrite Hb. }
    assert (∀ y s, transport C' svc Delivered (λ x, server_wrapper T C' svc meth (λ x s, (run_all T C' body x s, fails)) x (marshal T (c_sc y))) y s =
       transport C svc Delivered (λ x, server_wrapper T C svc meth (λ x s, (run_all T C body x s, fails)) x (marshal T (c_sc y))) y s) as Ht.
    { intros y s1. unfold transport. destruct (remote C' svc), (remote C svc); apply Hs. }
    destruct (if gen then _ else _) as [x1 s1]. by rewrite Ht. }
  intros Hc Hu. unfold run_all. revert s. induction l as [|a l IH]; intros s; [done|]. simpl in *.
  apply Forall_app in Hc as [Hc1 Hc2]. inversion_clear Hu as [|? ? Hu1 Hu2]. rewrite Ha by done. by apply IH.
Qed.
Definition ex_cfg2 : cfg := Cfg (λ s, Some (bool_decide (s = "a"))) (λ s, bool_decide (s = "b")) id id.
Definition ex_prog2 : list act :=
  [Call "a" "M" Delivered [Log Info "1"; Call "b" "N" Delivered [Call "c" "P" Delivered [] true] false] false].
Example C70_deployment_does_not_matter_nonvacuous :
  Forall (λ svc, inst ex_cfg2 svc ≠ None) (concat (map called ex_prog2)) ∧ Forall undisturbed ex_prog2 ∧
  map s_name (st_done (run_all ex_tracer ex_cfg2 ex_prog2 background st_init)) =
    ["cServer_P"; "bServer_N"; "aServer_M"; "aClient_M"].
Proof. split; [by repeat constructor|]. split; [by repeat constructor|]. by vm_compute. Qed.
Print Assumptions C70_deployment_does_not_matter.

(** A request whose caller is not sampled leaves no spans. *)
Theorem C70_unsampled_requests_leave_no_spans T C l x s :
  tracer_ok T →
  length (sc_trace (c_sc x)) = 16 → length (sc_span (c_sc x)) = 8 → ts_ok T (sc_state (c_sc x)) = true →
  sc_valid (c_sc x) = true → sampled (sc_flags (c_sc x)) = false → c_rec x = false →
  Forall (λ svc, inst C svc ≠ None) (concat (map called l)) →
  let s' := run_all T C l x s in
  st_open s' = st_open s ∧ st_done s' = st_done s ∧ st_crash s' = st_crash s.
Proof.
  intros HT L1 L2 L3 Hv Hs Hr Hc.
  set (quiet x := sized T (c_sc x) ∧ sc_valid (c_sc x) = true ∧ sampled (sc_flags (c_sc x)) = false ∧ c_rec x = false).
  set (same s s' := st_open s' = st_open s ∧ st_done s' = st_done s ∧ st_crash s' = st_crash s).
  assert (∀ s1 s2 s3, same s1 s2 → same s2 s3 → same s1 s3) as Htr.
  { intros s1 s2 s3 (E1 & E2 & E3) (F1 & F2 & F3). split_and!; congruence. }
  assert (quiet x) as Hx by done. clear L1 L2 L3 Hv Hs Hr.
  assert (∀ x m s, quiet x → quiet (start T x m s).1 ∧ same s (start T x m s).2) as Hst.
  { intros y m s1 ((H1 & H2 & H3) & H4 & H5 & H6). destruct (ok_sid T HT (st_next s1)) as [Ls Ns].
    assert (nonzero (sc_trace (c_sc y)) = true) as Hn by (unfold sc_valid in H4; by destruct (nonzero _)).
    unfold start. rewrite H4, H5, Hn. unfold quiet, sized, sc_valid, same. simpl. rewrite Hn, Ns.
    split_and!; try done. by destruct (sc_flags (c_sc y)). }
  assert (∀ x e s, quiet x → add_event x e s = s) as Hev.
  { intros y e s1 (_ & _ & _ & H). unfold add_event. by rewrite H. }
  assert (∀ x s, quiet x → finish x s = s) as Hfin.
  { intros y s1 (_ & _ & _ & H). unfold finish. rewrite H. by destruct (st_open s1 !! _). }
  assert (∀ a x s, Forall (λ svc, inst C svc ≠ None) (called a) → quiet x → same s (run T C a x s).1) as Ha.
  { intros a. induction a as [v m|svc meth n body fails IH] using act_ind'; intros y s1 Hc1 Hy.
    { simpl. by rewrite Hev. }
    simpl in Hc1. inversion_clear Hc1 as [|? ? Hi Hc'].
    assert (∀ x s, quiet x → same s (run_all T C body x s)) as Hb.
    { intros z. unfold run_all. clear Hi. induction IH as [|b body Hb _ IHb]; intros s2 Hz; [done|]. simpl in *.
      apply Forall_app in Hc' as [Hc1 Hc2]. eapply Htr; [by apply Hb|]. by apply IHb. }
    rewrite run_call. cbv zeta. destruct (inst C svc) as [gen|]; [|done].
    assert (∀ y z s, quiet y →
      same s (server_wrapper T C svc meth (λ x s, (run_all T C body x s, fails)) z (marshal T (c_sc y)) s).1) as Hsv.
    { intros q z s2 Hq. unfold server_wrapper. rewrite decide_False by apply (ok_enc T HT). rewrite get_marshal by (done || apply Hq).
      destruct Hq as (Q1 & Q2 & Q3 & Q4). rewrite Q2.
      match goal with |- context [start T ?w ?m s2] =>
        assert (quiet w) as Hw by (split; [exact Q1|]; split; [exact Q2|]; split; [exact Q3|done]);
        destruct (Hst w m s2 Hw) as [Hw1 Hw2]; destruct (start T w m s2) as [x2 s3] end.
      simpl in *. rewrite Hfin by done. eapply Htr; [exact Hw2|].
      eapply Htr; [by apply (Hb x2 s3)|]. destruct fails; [by rewrite Hev|done]. }
    assert (∀ y s, quiet y → same s (transport C svc n
      (λ x, server_wrapper T C svc meth (λ x s, (run_all T C body x s, fails)) x (marshal T (c_sc y))) y s).1) as Htp.
    { intros q s2 Hq. unfold transport. destruct (remote C svc); [destruct n|]; simpl; by (apply Hsv || done). }
    unfold client_wrapper. destruct gen.
    - set (m := (base C svc +:+ "Client_" +:+ meth)). destruct (Hst y m s1 Hy) as [Hy1 Hy2].
      destruct (start T y m s1) as [x1 s2]. simpl in Hy1, Hy2. specialize (Htp x1 s2 Hy1).
      destruct (transport C svc n _ x1 s2) as [s3 e]. simpl in *. rewrite Hfin by done.
      eapply Htr; [exact Hy2|]. destruct e; [by rewrite Hev|done].
    - specialize (Htp y s1 Hy). destruct (transport C svc n _ y s1) as [s3 e]. simpl in *. destruct e; [by rewrite Hev|done]. }
  unfold run_all. revert s. induction l as [|a l IH]; intros s; [done|]. simpl in *.
  apply Forall_app in Hc as [Hc1 Hc2]. eapply Htr; [by apply Ha|]. by apply IH.
Qed.
Example C70_unsampled_requests_leave_no_spans_nonvacuous :
  let x := Ctx (SC (new_tid ex_tracer 0) (new_sid ex_tracer 0) zero [] true) false in
  sc_valid (c_sc x) = true ∧ st_next (run_all ex_tracer ex_cfg2 ex_prog2 x st_init) = 4.
Proof. split; by vm_compute. Qed.
Print Assumptions C70_unsampled_requests_leave_no_spans.
Print Assumptions C69_valid_means_not_all_zero.
