From Verif Require Import Ports_Model Ports_Spec Ports_Proof Env_Model Compose_Model Compose_Spec Compose_Proof Kube_Model Kube_Spec.
From Coq Require Import ZifyBool ZifyNat ZifyN Lia.
Set Default Proof Using "Type".
Open Scope list_scope.
#[local] Arguments EnvVar : simpl never.
#[local] Arguments CleanName : simpl never.
#[local] Arguments host_port : simpl never.

Definition k_tell_inst (h : heap) (asg bs : list nat) (i : kinst) : kinst :=
  fold_left (λ i b, (if bool_decide (b ∈ asg)
     then k_add_env (b_key (deref h b)) (host_port "0.0.0.0" (port_of h b)) i else i)) bs i.
Definition k_expose_inst (h : heap) (bs : list nat) (i : kinst) : kinst :=
  fold_left (λ i b, k_expose (b_addr (deref h b)) (port_of h b) i) bs i.
Definition k_dial_inst (local : gmap string string) (ds : list (string * string)) (i : kinst) : kinst :=
  fold_left (λ i d, match local !! d.2 with Some a => k_add_env d.1 a i | None => k_add_cm (EnvVar d.1) i end) ds i.
Definition k_inst (h : heap) (asg : list nat) (local : gmap string string) (a : list carg) (i : kinst) : kinst :=
  k_dial_inst local (dials_of a) (k_expose_inst h (binds_of a) (k_tell_inst h asg (binds_of a) i)).

Lemma k_one_spec h asg local n a m :
  k_dial_all local n (dials_of a) (k_expose_all h n (binds_of a) (k_tell h asg n (binds_of a) m)) =
  k_upd (k_inst h asg local a) n m.
Proof.
  unfold k_dial_all, k_expose_all, k_tell, k_upd.
  rewrite (fold_left_ext_in (λ m b, if bool_decide (b ∈ asg) then alter _ _ m else m)
    (λ m b, alter (λ i, if bool_decide (b ∈ asg) then k_add_env (b_key (deref h b)) (host_port "0.0.0.0" (port_of h b)) i else i) (CleanName n) m)).
  2:{ intros x b _. destruct (bool_decide (b ∈ asg)); [done|]. symmetry. by apply alter_id. }
  rewrite (fold_left_ext_in (λ m d, match local !! d.2 with Some a => alter _ _ m | None => alter _ _ m end)
    (λ m d, alter (λ i, match local !! d.2 with Some a => k_add_env d.1 a i | None => k_add_cm (EnvVar d.1) i end) (CleanName n) m)).
  2:{ intros x d _. by destruct (local !! d.2). }
  rewrite !fold_alter, !alter_alter. done.
Qed.

Lemma k_loop_spec h asg local args order m :
  k_loop h asg local args order m =
  if forallb (λ n, k_rest_ok (rest_of (args_at args n))) order
  then Some (fold_left (λ m n, k_upd (k_inst h asg local (args_at args n)) n m) order m) else None.
Proof.
  revert m. induction order as [|n order IH]; intros m; cbn [k_loop forallb]; [done|].
  fold (args_at args n). destruct (k_rest_ok _); [|done]. cbn [andb]. rewrite IH, k_one_spec. done.
Qed.

Lemma k_fold_lookup (F : string → kinst → kinst) order m :
  NoDup order → (∀ n n', n ∈ order → n' ∈ order → CleanName n = CleanName n' → n = n') →
  ∀ n, n ∈ order → fold_left (λ m n, k_upd (F n) n m) order m !! CleanName n = F n <$> m !! CleanName n.
Proof.
  intros Hnd Hc.
  assert ((∀ n, n ∈ order → fold_left (λ m n, k_upd (F n) n m) order m !! CleanName n = F n <$> m !! CleanName n) ∧
    (∀ c, (∀ n, n ∈ order → CleanName n ≠ c) → fold_left (λ m n, k_upd (F n) n m) order m !! c = m !! c)) as [? _]; [|done].
  induction order as [|x order IH] using rev_ind; [set_solver|].
  apply NoDup_app in Hnd as (Hnd&Hdis&_).
  destruct IH as [I1 I2]; [done|set_solver|]. rewrite fold_left_app. cbn. unfold k_upd at 1 3. split.
  - intros n [Hn|Hn]%elem_of_app.
    + rewrite lookup_alter_ne; [by apply I1|]. intros E. apply (Hdis n Hn).
      apply elem_of_list_singleton. apply Hc; [set_solver..|done].
    + apply elem_of_list_singleton in Hn as ->. rewrite lookup_alter. f_equal. apply I2.
      intros n Hn E. apply (Hdis n Hn). apply elem_of_list_singleton. apply Hc; [set_solver..|done].
  - intros c Hnc. rewrite lookup_alter_ne by (apply Hnc; set_solver). apply I2. set_solver.
Qed.

(** ** Declarations *)
Definition kdeclared_ok (w : kws) : Prop :=
  (∀ j, is_Some (kw_args w !! j) → ∃ i, kw_insts w !! CleanName j = Some i ∧ k_ports i = ∅ ∧ k_cm i = ∅) ∧
  (∀ j j', is_Some (kw_args w !! j) → is_Some (kw_args w !! j') → CleanName j = CleanName j' → j = j').
Lemma do_kop_ok w o w' : kdeclared_ok w → do_kop w o = Some w' → kdeclared_ok w'.
Proof.
  intros (D1&D3). destruct o as [n im args|n k v|n]; cbn.
  - destruct (kw_insts w !! CleanName n) eqn:E; [done|]. intros [= <-].
    assert (Hfresh : ∀ j, is_Some (kw_args w !! j) → CleanName j ≠ CleanName n).
    { intros j Hj Hc. destruct (D1 _ Hj) as (i&Hi&_). congruence. }
    split; cbn.
    + intros j Hj. destruct (decide (j = n)) as [->|Hne].
      * exists (Kinst im ∅ ∅ ∅). by rewrite lookup_insert.
      * rewrite lookup_insert_ne in Hj by done. rewrite lookup_insert_ne by (intros ?; by apply (Hfresh j)).
        by apply D1.
    + intros j j' [<-|Hj]%lookup_insert_is_Some' [<-|Hj']%lookup_insert_is_Some' Heq; [done|..].
      * by destruct (Hfresh j').
      * by destruct (Hfresh j).
      * by apply D3.
  - destruct (bool_decide _) eqn:E; [|done]. intros [= <-]. unfold k_upd. split; cbn; [|done].
    intros j Hj. destruct (D1 _ Hj) as (i&Hi&?&?).
    destruct (decide (CleanName n = CleanName j)) as [Hc|Hc].
    * rewrite Hc, lookup_alter, Hi. eexists. done.
    * rewrite lookup_alter_ne by done. eauto.
  - destruct (bool_decide _); [|done]. by intros [= <-].
Qed.
Lemma do_kops_ok w os w' : kdeclared_ok w → do_kops w os = Some w' → kdeclared_ok w'.
Proof.
  revert w. induction os as [|o os IH]; intros w HD; cbn; [by intros [= <-]|].
  destruct (do_kop w o) as [w1|] eqn:E; [|done]. apply IH. by eapply do_kop_ok.
Qed.
Lemma kws0_ok : kdeclared_ok kws0.
Proof. split; cbn; intros *; rewrite lookup_empty; by intros []. Qed.

(** ** One container *)
Lemma k_tell_inst_spec h asg bs i :
  k_config (k_tell_inst h asg bs i) = writes (tell_writes h (filter (.∈ asg) bs)) (k_config i) ∧
  k_ports (k_tell_inst h asg bs i) = k_ports i ∧ k_cm (k_tell_inst h asg bs i) = k_cm i.
Proof.
  unfold k_tell_inst. induction bs as [|b bs IH] using rev_ind; [done|].
  rewrite fold_left_snoc, filter_app. unfold tell_writes in *. rewrite fmap_app, writes_app.
  destruct IH as (<-&<-&<-). rewrite filter_cons, filter_nil.
  destruct (decide (b ∈ asg)).
  - rewrite bool_decide_true by done. done.
  - rewrite bool_decide_false by done. done.
Qed.
Definition exp_ins (h : heap) (bs : list nat) (m : gmap string N) : gmap string N :=
  fold_left (λ m b, <[b_addr (deref h b) := port_of h b]> m) bs m.
Lemma k_expose_inst_spec h bs i :
  k_config (k_expose_inst h bs i) = k_config i ∧ k_cm (k_expose_inst h bs i) = k_cm i ∧
  k_ports (k_expose_inst h bs i) = exp_ins h bs (k_ports i).
Proof.
  unfold k_expose_inst, exp_ins. induction bs as [|b bs IH] using rev_ind; [done|].
  rewrite !fold_left_snoc. destruct IH as (<-&<-&<-). done.
Qed.
Lemma exp_ins_some h bs m b :
  b ∈ bs → (∀ b', b' ∈ bs → b_addr (deref h b') = b_addr (deref h b) → b' = b) →
  exp_ins h bs m !! b_addr (deref h b) = Some (port_of h b).
Proof.
  unfold exp_ins. induction bs as [|x bs IH] using rev_ind; [by intros ?%elem_of_nil|]. intros Hb Hu.
  rewrite fold_left_snoc.
  destruct (decide (b_addr (deref h x) = b_addr (deref h b))) as [E|E].
  - rewrite E, lookup_insert. rewrite (Hu x); [done|apply elem_of_app; right; left|done].
  - rewrite lookup_insert_ne by done. apply IH.
    + apply elem_of_app in Hb as [?|Hb]; [done|]. apply elem_of_list_singleton in Hb. congruence.
    + intros b' Hb'. apply Hu. apply elem_of_app. by left.
Qed.
Definition local_writes (local : gmap string string) (ds : list (string * string)) : list (string * string) :=
  omap (λ d, (λ a, (d.1, a)) <$> local !! d.2) ds.
Lemma k_dial_inst_spec local ds i :
  k_config (k_dial_inst local ds i) = writes (local_writes local ds) (k_config i) ∧
  k_ports (k_dial_inst local ds i) = k_ports i ∧
  ∀ v, v ∈ k_cm (k_dial_inst local ds i) ↔ v ∈ k_cm i ∨ ∃ d, d ∈ ds ∧ local !! d.2 = None ∧ v = EnvVar d.1.
Proof.
  unfold k_dial_inst, local_writes. induction ds as [|d ds IH] using rev_ind.
  - split_and!; [done..|]. intros v. split; [by left|]. intros [?|(d&Hd&_)]; [done|]. by apply elem_of_nil in Hd.
  - rewrite fold_left_snoc, omap_app, writes_app. destruct IH as (<-&<-&I3). cbn.
    destruct (local !! d.2) as [a|] eqn:E; cbn.
    + split_and!; [done..|]. intros v. rewrite I3. split.
      * intros [?|(x&?&?&?)]; [by left|]. right. exists x. rewrite elem_of_app. auto.
      * intros [?|(x&Hx&Hn&?)]; [by left|]. right. exists x. apply elem_of_app in Hx as [?|Hx]; [auto|].
        apply elem_of_list_singleton in Hx as ->. congruence.
    + split_and!; [done..|]. intros v. rewrite elem_of_union, elem_of_singleton, I3. split.
      * intros [->|[?|(x&?&?&?)]]; [|by left|].
        -- right. exists d. rewrite elem_of_app. split_and!; [right; left|done..].
        -- right. exists x. rewrite elem_of_app. auto.
      * intros [?|(x&Hx&Hn&?)]; [auto|]. apply elem_of_app in Hx as [?|Hx]; [eauto 6|].
        apply elem_of_list_singleton in Hx as ->. auto.
Qed.

Lemma k_inst_spec h asg local a i :
  k_config (k_inst h asg local a i) =
    writes (tell_writes h (filter (.∈ asg) (binds_of a)) ++ local_writes local (dials_of a)) (k_config i) ∧
  k_ports (k_inst h asg local a i) = exp_ins h (binds_of a) (k_ports i) ∧
  ∀ v, v ∈ k_cm (k_inst h asg local a i) ↔ v ∈ k_cm i ∨ ∃ k x, ADial k x ∈ a ∧ local !! x = None ∧ v = EnvVar k.
Proof.
  unfold k_inst.
  destruct (k_dial_inst_spec local (dials_of a) (k_expose_inst h (binds_of a) (k_tell_inst h asg (binds_of a) i))) as (->&->&D3).
  destruct (k_expose_inst_spec h (binds_of a) (k_tell_inst h asg (binds_of a) i)) as (->&E2&->).
  destruct (k_tell_inst_spec h asg (binds_of a) i) as (->&->&T3).
  rewrite writes_app. split_and!; [done..|]. intros v. rewrite D3, E2, T3. split.
  - intros [?|([k x]&Hd&Hl&->)]; [by left|]. right. exists k, x. split; [by apply elem_dials|done].
  - intros [?|(k&x&Hd&Hl&->)]; [by left|]. right. exists (k, x). split; [by apply elem_dials|done].
Qed.

(** ** One pod *)
Lemma elem_all_binds args order b :
  b ∈ all_binds args order ↔ ∃ n, n ∈ order ∧ ABind b ∈ args_at args n.
Proof.
  unfold all_binds. rewrite elem_of_list_bind. split.
  - intros (n&Hb&Hn). exists n. split; [done|]. by apply elem_binds.
  - intros (n&Hn&Hb). exists n. split; [|done]. by apply elem_binds.
Qed.
Lemma elem_all_dials args order k a :
  (k, a) ∈ all_dials args order ↔ ∃ n, n ∈ order ∧ ADial k a ∈ args_at args n.
Proof.
  unfold all_dials. rewrite elem_of_list_bind. split.
  - intros (n&Hb&Hn). exists n. split; [done|]. by apply elem_dials.
  - intros (n&Hn&Hb). exists n. split; [|done]. by apply elem_dials.
Qed.
Lemma local_addrs_spec h bs :
  (∀ a v, local_addrs h bs !! a = Some v → ∃ b, b ∈ bs ∧ b_addr (deref h b) = a ∧ v = host_port "localhost" (port_of h b)) ∧
  (∀ b, b ∈ bs → is_Some (local_addrs h bs !! b_addr (deref h b))).
Proof.
  unfold local_addrs. induction bs as [|b bs IH] using rev_ind.
  - split; [intros a v; cbn; by rewrite lookup_empty|by intros b ?%elem_of_nil].
  - rewrite fold_left_snoc. destruct IH as [I1 I2]. split.
    + intros a v [[<- <-]|[_ Hx]]%lookup_insert_Some.
      * exists b. rewrite elem_of_app. split; [right; left|done].
      * destruct (I1 _ _ Hx) as (c&?&?&?). exists c. rewrite elem_of_app. auto.
    + intros c [Hc|Hc]%elem_of_app; apply lookup_insert_is_Some'.
      * right. by apply I2.
      * apply elem_of_list_singleton in Hc as ->. by left.
Qed.

Section one_pod.
  Context (f : nat) (h : heap) (w : kws) (o1 o2 : list string) (r : kresult).
  Context (HD : kdeclared_ok w) (Ho1 : range_order (kw_args w) o1) (Ho2 : range_order (kw_args w) o2).
  Context (Hheap : ∀ b, b ∈ all_binds (kw_args w) o1 → is_Some (h !! b)).
  Context (Hr : k_process f h w o1 o2 = DOk r).
  Notation A := (args_at (kw_args w)).
  Notation BS := (all_binds (kw_args w) o1).

  Lemma k_process_facts :
    r_binds r = BS ∧ r_dials r = all_dials (kw_args w) o2 ∧
    (∀ b, b_key (deref (r_heap r) b) = b_key (deref h b) ∧ b_addr (deref (r_heap r) b) = b_addr (deref h b)) ∧
    (∀ b, b ∉ BS → r_heap r !! b = h !! b) ∧
    (∀ b, b ∈ BS → port_of h b ≠ 0%N → port_of (r_heap r) b = port_of h b) ∧
    (∀ b b', b ∈ BS → b' ∈ BS → b ≠ b' → port_of (r_heap r) b ≠ port_of (r_heap r) b') ∧
    (∀ j, is_Some (kw_args w !! j) → k_rest_ok (rest_of (A j)) = true ∧
       ∃ i, kw_insts w !! CleanName j = Some i ∧ k_ports i = ∅ ∧ k_cm i = ∅ ∧
         r_insts r !! CleanName j = Some (k_inst (r_heap r) (unset h BS) (local_addrs (r_heap r) BS) (A j) i)).
  Proof using HD Ho1 Ho2 Hheap Hr.
    unfold k_process in Hr. destruct (assign_ports f h BS) as [h' p a| |] eqn:Ea; [|done..].
    rewrite k_loop_spec in Hr. destruct (forallb _ o2) eqn:Ef; [|done]. injection Hr as <-. cbn.
    apply assign_ports_ok in Ea as (Hpre&Hasg&Hp&Hd&_&Hk&Hun&_); [|done]. subst a.
    split_and!; [done|done| |done| |done|].
    - intros b. destruct (Hk b) as (?&?&?). done.
    - intros b Hb Hn. apply Hp. rewrite Hpre. by apply elem_of_list_filter.
    - intros j Hj. split.
      + apply forallb_forall with (x := j) in Ef; [done|]. apply elem_of_list_In. by apply Ho2.
      + destruct HD as [D1 D3]. destruct (D1 _ Hj) as (i&Hi&?&?). exists i. split_and!; [done..|].
        rewrite (k_fold_lookup (λ n, k_inst h' (unset h BS) (local_addrs h' BS) (A n))).
        * by rewrite Hi.
        * apply Ho2.
        * intros n n' Hn Hn'. apply D3; by apply Ho2.
        * by apply Ho2.
  Qed.
End one_pod.

(** ** All pods *)
Definition pbinds (p : pod) : list nat := all_binds (kw_args (p_ws p)) (p_o1 p).
Definition pod_wf (p : pod) : Prop :=
  kdeclared_ok (p_ws p) ∧ range_order (kw_args (p_ws p)) (p_o1 p) ∧ range_order (kw_args (p_ws p)) (p_o2 p).

Lemma save_pod_spec (h : heap) (pn : string) bs (a0 : gmap string (string * nat)) :
  let a' := fold_left (λ a b, <[b_addr (deref h b) := (pn, b)]> a) bs a0 in
  (∀ x v, a' !! x = Some v → (∃ b, b ∈ bs ∧ b_addr (deref h b) = x ∧ v = (pn, b)) ∨ a0 !! x = Some v) ∧
  (∀ b, b ∈ bs → is_Some (a' !! b_addr (deref h b))) ∧
  (∀ x, is_Some (a0 !! x) → is_Some (a' !! x)).
Proof.
  cbn. induction bs as [|b bs IH] using rev_ind.
  - split_and!; [by right|by intros b ?%elem_of_nil|done].
  - rewrite fold_left_snoc. destruct IH as (I1&I2&I3). split_and!.
    + intros x v [[<- <-]|[_ Hx]]%lookup_insert_Some.
      * left. exists b. rewrite elem_of_app. split; [right; left|done].
      * destruct (I1 _ _ Hx) as [(c&?&?&?)|?]; [|by right]. left. exists c. rewrite elem_of_app. auto.
    + intros c [Hc|Hc]%elem_of_app; apply lookup_insert_is_Some'.
      * right. by apply I2.
      * apply elem_of_list_singleton in Hc as ->. by left.
    + intros x Hx. apply lookup_insert_is_Some'. right. by apply I3.
Qed.

Lemma gen_pods_spec f h pods addrs dials h' addrs' dials' outs :
  (∀ i p, pods !! i = Some p → pod_wf p) →
  (∀ i p b, pods !! i = Some p → b ∈ pbinds p → is_Some (h !! b)) →
  (∀ i i' p p' b, pods !! i = Some p → pods !! i' = Some p' → b ∈ pbinds p → b ∈ pbinds p' → i = i') →
  gen_pods f h pods addrs dials = DOk (h', addrs', dials', outs) →
  (∀ b, (∀ i p, pods !! i = Some p → b ∉ pbinds p) → h' !! b = h !! b) ∧
  (∀ b, b_key (deref h' b) = b_key (deref h b) ∧ b_addr (deref h' b) = b_addr (deref h b)) ∧
  length outs = length pods ∧
  (∀ i p, pods !! i = Some p → ∃ hp r, agree hp h (pbinds p) ∧
     (∀ b, b_key (deref hp b) = b_key (deref h b) ∧ b_addr (deref hp b) = b_addr (deref h b)) ∧
     k_process f hp (p_ws p) (p_o1 p) (p_o2 p) = DOk r ∧
     outs !! i = Some (Podout (kube_name (p_name p)) (r_insts r)) ∧ agree (r_heap r) h' (pbinds p)) ∧
  (∀ x v, addrs' !! x = Some v →
     (∃ i p b, pods !! i = Some p ∧ b ∈ pbinds p ∧ b_addr (deref h b) = x ∧ v = (kube_name (p_name p), b)) ∨ addrs !! x = Some v) ∧
  (∀ i p b, pods !! i = Some p → b ∈ pbinds p → is_Some (addrs' !! b_addr (deref h b))) ∧
  (∀ x, is_Some (addrs !! x) → is_Some (addrs' !! x)) ∧
  (∀ d, d ∈ dials' ↔ d ∈ dials ∨ ∃ i p, pods !! i = Some p ∧ d ∈ all_dials (kw_args (p_ws p)) (p_o2 p)).
Proof.
  revert h addrs dials h' addrs' dials' outs.
  induction pods as [|p pods IH]; intros h addrs dials h' addrs' dials' outs Hwf Hin Hdj; cbn [gen_pods].
  - intros [= <- <- <- <-]. split_and!; try done; intros; try (by rewrite lookup_nil in *).
    + by right.
    + split; [by left|]. intros [?|(i&p&Hp&_)]; [done|]. by rewrite lookup_nil in Hp.
  - destruct (k_process f h (p_ws p) (p_o1 p) (p_o2 p)) as [r| |] eqn:Er; [|done..].
    destruct (Hwf 0 p eq_refl) as (W1&W2&W3).
    destruct (k_process_facts f h (p_ws p) (p_o1 p) (p_o2 p) r W1 W2 W3) as (R1&R2&Rk&Run&_); [|done|].
    { intros b Hb. by eapply (Hin 0). }
    destruct (gen_pods _ _ pods _ _) as [[[[h2 a2] d2] o2]| |] eqn:Eg; [|done..].
    intros [= -> -> -> <-].
    apply IH in Eg as (G1&G2&G3&G4&G5&G6&G7&G8).
    + destruct (save_pod_spec (r_heap r) (kube_name (p_name p)) (r_binds r) addrs) as (S1&S2&S3).
      assert (Hdel : ∀ b, b ∈ pbinds p → ∀ i q, pods !! i = Some q → b ∉ pbinds q).
      { intros b Hb i q Hq Hb'. by specialize (Hdj 0 (S i) p q b eq_refl Hq Hb Hb'). }
      split_and!.
      * intros b Hb. rewrite G1; [apply Run; apply (Hb 0 p eq_refl)|]. intros i q Hq. by apply (Hb (S i)).
      * intros b. destruct (G2 b) as [-> ->]. apply Rk.
      * cbn. by rewrite G3.
      * intros [|i] q Hq; cbn in Hq.
        -- injection Hq as <-. exists h, r. split_and!; [done..|]. intros b Hb. symmetry. apply G1. by apply Hdel.
        -- destruct (G4 i q Hq) as (hp&r'&Ha&Hk&Hp&Ho&Ha'). exists hp, r'. split_and!; [..|done|done|done].
           ++ intros b Hb. rewrite Ha by done. apply Run. intros Hb'. by apply (Hdel b Hb' i q Hq).
           ++ intros b. destruct (Hk b) as [-> ->]. apply Rk.
      * intros x v Hx. destruct (G5 _ _ Hx) as [(i&q&b&Hq&Hb&Hba&->)|Hx'].
        -- left. exists (S i), q, b. split_and!; try done. by destruct (Rk b) as [_ <-].
        -- destruct (S1 _ _ Hx') as [(b&Hb&Hba&->)|?]; [|by right]. left. exists 0, p, b.
           rewrite R1 in Hb. split_and!; try done. by destruct (Rk b) as [_ <-].
      * intros [|i] q b Hq Hb; cbn in Hq.
        -- injection Hq as <-. apply G7. destruct (Rk b) as [_ <-]. apply S2. by rewrite R1.
        -- destruct (Rk b) as [_ <-]. by eapply G6.
      * intros x Hx. by apply G7, S3.
      * intros d. rewrite G8, elem_of_app, R2. split.
        -- intros [[?|?]|(i&q&?&?)]; [by left|right; by exists 0, p|right; by exists (S i), q].
        -- intros [?|([|i]&q&Hq&?)]; [by left; left| |right; by exists i, q].
           cbn in Hq. injection Hq as <-. left. by right.
    + intros i q Hq. by apply (Hwf (S i)).
    + intros i q b Hq Hb. rewrite Run; [by apply (Hin (S i) q)|]. intros Hb'.
      by specialize (Hdj 0 (S i) p q b eq_refl Hq Hb' Hb).
    + intros i i' q q' b Hq Hq' Hb Hb'. by specialize (Hdj (S i) (S i') q q' b Hq Hq' Hb Hb') as [= ->].
Qed.

Lemma config_data_spec h addrs dials data data' :
  config_data h addrs dials data = Some data' →
  (∀ d, d ∈ dials → is_Some (addrs !! d.2)) ∧
  (∀ k a, (k, a) ∈ dials → (∀ k' a', (k', a') ∈ dials → EnvVar k' = EnvVar k → a' = a) →
     ∃ pn b, addrs !! a = Some (pn, b) ∧ data' !! EnvVar k = Some (host_port pn (port_of h b))) ∧
  (∀ v, (∀ k a, (k, a) ∈ dials → EnvVar k ≠ v) → data' !! v = data !! v).
Proof.
  revert data. induction dials as [|d dials IH]; intros data; cbn [config_data].
  - intros [= <-]. split_and!; [by intros d ?%elem_of_nil|by intros k a ?%elem_of_nil|done].
  - destruct (addrs !! d.2) as [[pn b]|] eqn:E; [|done]. intros Hc.
    destruct (IH _ Hc) as (I1&I2&I3). split_and!.
    + intros x [->|Hx]%elem_of_cons; [by rewrite E|by apply I1].
    + intros k a Hka Hu.
      destruct (decide (Exists (λ d', EnvVar d'.1 = EnvVar k) dials)) as [Hex|Hex].
      * apply Exists_exists in Hex as ([k' a']&Hd'&Hv). cbn in Hv.
        assert (a' = a) as -> by (eapply Hu; [right; done|done]).
        destruct (I2 k' a Hd') as (pn'&b'&?&?).
        { intros k2 a2 H2 Hv2. eapply Hu; [by right|congruence]. }
        exists pn', b'. rewrite <-Hv. done.
      * assert (d = (k, a)) as ->.
        { apply elem_of_cons in Hka as [->|Hka]; [done|]. destruct Hex. apply Exists_exists. by exists (k, a). }
        cbn in *. exists pn, b. split; [done|]. rewrite I3.
        { by rewrite lookup_insert. }
        intros k' a' Hd' Hv. apply Hex, Exists_exists. by exists (k', a').
    + intros v Hv. rewrite I3 by (intros k a Hka; apply (Hv k a); by right).
      apply lookup_insert_ne. apply (Hv d.1 d.2). destruct d; left.
Qed.

Section app.
  Context (f : nat) (h : heap) (pods : list pod) (data : gmap string string) (outs : list podout).
  Context (Hok : app_ok h pods) (Hg : gen_app f h pods = DOk (data, outs)).

  Lemma app_wf i p : pods !! i = Some p → pod_wf p.
  Proof using Hok.
    intros Hp. destruct Hok as (O1&_). destruct (O1 _ _ Hp) as ((ops&Hops)&?&?). split; [|done].
    eapply do_kops_ok; [exact kws0_ok|done].
  Qed.
  Lemma pbinds_karg i p b : pods !! i = Some p → b ∈ pbinds p ↔ ∃ j, has_karg pods i j (ABind b).
  Proof using Hok.
    intros Hp. destruct (app_wf _ _ Hp) as (_&[_ W2]&_). unfold pbinds. rewrite elem_all_binds. split.
    - intros (n&Hn&Hb). apply W2 in Hn as [args Ha]. exists n, p, args. unfold args_at in Hb. rewrite Ha in Hb. done.
    - intros (j&p'&args&Hp'&Ha&Hb). assert (p' = p) as -> by congruence. exists j. split; [by apply W2|].
      unfold args_at. by rewrite Ha.
  Qed.
  Lemma pdials_karg i p k a : pods !! i = Some p →
    (k, a) ∈ all_dials (kw_args (p_ws p)) (p_o2 p) ↔ ∃ j, has_karg pods i j (ADial k a).
  Proof using Hok.
    intros Hp. destruct (app_wf _ _ Hp) as (_&_&[_ W2]). rewrite elem_all_dials. split.
    - intros (n&Hn&Hb). apply W2 in Hn as [args Ha]. exists n, p, args. unfold args_at in Hb. rewrite Ha in Hb. done.
    - intros (j&p'&args&Hp'&Ha&Hb). assert (p' = p) as -> by congruence. exists j. split; [by apply W2|].
      unfold args_at. by rewrite Ha.
  Qed.

  Lemma app_bound_dec i a : bound_in h pods i a ∨ ¬ bound_in h pods i a.
  Proof using Hok.
    destruct (pods !! i) as [p|] eqn:Hp.
    - destruct (decide (Exists (λ b, b_addr (deref h b) = a) (pbinds p))) as [He|He].
      + left. apply Exists_exists in He as (b&Hb&Hba). apply (pbinds_karg i) in Hb as [j Hj]; [|done]. by exists j, b.
      + right. intros (j&b&Hj&Hba). apply He, Exists_exists. exists b. split; [|done]. apply (pbinds_karg i); eauto.
    - right. intros (j&b&(p&args&Hp'&_)&_). congruence.
  Qed.

  Theorem app_correct :
    length outs = length pods ∧
    ∃ port : nat → N,
    ∀ i p, pods !! i = Some p →
    ∃ m, outs !! i = Some (Podout (kube_name (p_name p)) m) ∧
      (∀ j j' b b', has_karg pods i j (ABind b) → has_karg pods i j' (ABind b') → b ≠ b' → port b ≠ port b') ∧
      ∀ j args, kw_args (p_ws p) !! j = Some args →
      ∃ i0 c, kw_insts (p_ws p) !! CleanName j = Some i0 ∧ m !! CleanName j = Some c ∧
        (∀ b, ABind b ∈ args →
           k_ports c !! b_addr (deref h b) = Some (port b) ∧ service_ports m (port b) ∧
           (port_of h b ≠ 0%N → port b = port_of h b) ∧
           (port_of h b = 0%N → effective data c (EnvVar (b_key (deref h b))) = Some (host_port "0.0.0.0" (port b)))) ∧
        (∀ k a, ADial k a ∈ args → bound_in h pods i a →
           ∃ j' b, has_karg pods i j' (ABind b) ∧ b_addr (deref h b) = a ∧
             effective data c (EnvVar k) = Some (host_port "localhost" (port b))) ∧
        (∀ k a, ADial k a ∈ args → ¬ bound_in h pods i a →
           ∃ i' p' j' b, pods !! i' = Some p' ∧ has_karg pods i' j' (ABind b) ∧ b_addr (deref h b) = a ∧
             data !! EnvVar k = Some (host_port (kube_name (p_name p')) (port b)) ∧
             (has_direct h pods i j i0 →
                effective data c (EnvVar k) = Some (host_port (kube_name (p_name p')) (port b)))) ∧
        (¬ has_direct h pods i j i0 → ∀ v, k_shown_env c v = None).
  Proof using Hok Hg.
    unfold gen_app in Hg. destruct (gen_pods f h pods ∅ []) as [[[[h' addrs] dials] outs']| |] eqn:Eg; [|done..].
    destruct (config_data h' addrs dials ∅) as [data'|] eqn:Ec; [|done]. injection Hg as -> ->.
    pose proof Hok as (O1&O2&O3&O4&O5&O6).
    apply gen_pods_spec in Eg as (G1&G2&G3&G4&G5&G6&G7&G8).
    2:{ exact app_wf. }
    2:{ intros i p b Hp Hb. apply (pbinds_karg i) in Hb as [j Hj]; [|done]. by eapply O2. }
    2:{ intros i i' p p' b Hp Hp' Hb Hb'. apply (pbinds_karg i) in Hb as [j Hj]; [|done].
        apply (pbinds_karg i') in Hb' as [j' Hj']; [|done]. by destruct (O3 _ _ _ _ _ Hj Hj'). }
    split; [done|]. exists (port_of h'). intros i p Hp.
    destruct (G4 i p Hp) as (hp&r&Ha&Hpk&Hproc&Ho&Ha'). exists (r_insts r). split; [done|].
    destruct (app_wf _ _ Hp) as (W1&W2&W3).
    destruct (k_process_facts f hp (p_ws p) (p_o1 p) (p_o2 p) r W1 W2 W3) as (R1&R2&Rk&Run&Rpre&Rdis&Rinst); [|done|].
    { intros b Hb. fold (pbinds p) in Hb. rewrite Ha by done. apply (pbinds_karg i) in Hb as [j Hj]; [|done]. by eapply O2. }
    fold (pbinds p) in *.
    assert (Hpt : ∀ b, b ∈ pbinds p → port_of (r_heap r) b = port_of h' b).
    { intros b Hb. by eapply agree_port. }
    assert (Hp0 : ∀ b, b ∈ pbinds p → port_of hp b = port_of h b).
    { intros b Hb. by eapply agree_port. }
    assert (Hkey : ∀ b, b_key (deref (r_heap r) b) = b_key (deref h b)).
    { intros b. destruct (Rk b) as [-> _]. apply Hpk. }
    assert (Hadr : ∀ b, b_addr (deref (r_heap r) b) = b_addr (deref h b)).
    { intros b. destruct (Rk b) as [_ ->]. apply Hpk. }
    split.
    { intros j j' b b' Hb Hb' Hne. rewrite <-!Hpt by (apply (pbinds_karg i); eauto).
      apply Rdis; [..|done]; apply (pbinds_karg i); eauto. }
    intros j args Hj. destruct (Rinst j) as (_&i0&Hi0&Hip&Hic&Hc); [by rewrite Hj|].
    set (LA := local_addrs (r_heap r) (pbinds p)) in *.
    assert (HA : args_at (kw_args (p_ws p)) j = args) by (unfold args_at; by rewrite Hj). rewrite HA in Hc.
    set (c := k_inst (r_heap r) (unset hp (pbinds p)) LA args i0) in *.
    exists i0, c. split; [done|]. split; [done|].
    destruct (k_inst_spec (r_heap r) (unset hp (pbinds p)) LA args i0) as (C1&C2&C3). fold c in C1, C2, C3.
    destruct (local_addrs_spec (r_heap r) (pbinds p)) as [L1 L2]. fold LA in L1, L2.
    assert (Hself : ∀ a, a ∈ args → has_karg pods i j a) by (intros a Hin; exists p, args; done).
    assert (Hpb : ∀ b, ABind b ∈ args → b ∈ pbinds p).
    { intros b Hb. apply (pbinds_karg i); [done|]. eauto. }
    assert (Hloc : ∀ a, is_Some (LA !! a) ↔ bound_in h pods i a).
    { intros a. split.
      - intros [v Hv]. destruct (L1 _ _ Hv) as (b&Hb&Hba&_). apply (pbinds_karg i) in Hb as [j' Hj']; [|done].
        exists j', b. split; [done|]. by rewrite <-Hadr.
      - intros (j'&b&Hb&<-). rewrite <-Hadr. apply L2. apply (pbinds_karg i); eauto. }
    assert (Huniq : ∀ a a' n n', a ∈ args → a' ∈ args → arg_name h a = Some n → arg_name h a' = Some n' → EnvVar n = EnvVar n' → a = a').
    { intros a a' n n' Hin Hin'. apply (O4 i j); auto. }
    (* who writes a direct variable *)
    assert (Hwr : ∀ k s, (k, s) ∈ tell_writes (r_heap r) (filter (.∈ unset hp (pbinds p)) (binds_of args)) ++ local_writes LA (dials_of args) ↔
          (∃ b, ABind b ∈ args ∧ port_of h b = 0%N ∧ k = b_key (deref h b) ∧ s = host_port "0.0.0.0" (port_of h' b)) ∨
          (∃ a, ADial k a ∈ args ∧ LA !! a = Some s)).
    { intros k s. rewrite elem_of_app. unfold tell_writes, local_writes. rewrite elem_of_list_fmap, elem_of_list_omap.
      split; (intros [Hx|Hx]; [left|right]).
      - destruct Hx as (b&Hx&Hb). injection Hx as -> ->. apply elem_of_list_filter in Hb as [Hu Hb].
        apply elem_of_list_filter in Hu as [Hz Hb']. apply elem_binds in Hb. exists b.
        rewrite <-Hp0, Hkey, <-Hpt by done. done.
      - destruct Hx as ([k' a]&Hd&Hx). apply elem_dials in Hd. cbn in Hx.
        destruct (LA !! a) as [v|] eqn:E; [|done]. cbn in Hx. injection Hx as -> ->. eauto.
      - destruct Hx as (b&Hb&Hz&->&->). exists b. rewrite Hkey, Hpt by auto. split; [done|].
        apply elem_of_list_filter. split; [|by apply elem_binds]. apply elem_of_list_filter.
        rewrite Hp0 by auto. auto.
      - destruct Hx as (a&Hd&Hl). exists (k, a). split; [by apply elem_dials|]. cbn. by rewrite Hl. }
    (* the env section is written iff there is a direct variable *)
    assert (Hdir : has_direct h pods i j i0 ↔ k_config c ≠ ∅).
    { split.
      - intros [Hd|[(b&(p'&args'&Hp'&Hj'&Hb)&Hz)|(k&a&(p'&args'&Hp'&Hj'&Hd)&Hbd)]].
        + rewrite C1. clear -Hd. generalize (tell_writes (r_heap r) (filter (.∈ unset hp (pbinds p)) (binds_of args)) ++ local_writes LA (dials_of args)).
          intros l. induction l as [|x l IH] using rev_ind; [done|]. rewrite writes_app. unfold writes at 1. cbn.
          apply insert_non_empty.
        + assert (p' = p) as -> by congruence. assert (args' = args) as -> by congruence.
          intros E. assert (Hw : k_config c !! EnvVar (b_key (deref h b)) = Some (host_port "0.0.0.0" (port_of h' b))); [|by rewrite E, lookup_empty in Hw].
          rewrite C1. apply writes_some.
          * exists (b_key (deref h b)). split; [apply Hwr; left; by exists b|done].
          * intros k' s' Hw Hv. apply Hwr in Hw as [(b2&Hb2&_&->&->)|(a'&Hd'&_)].
            -- specialize (Huniq _ _ _ _ Hb2 Hb eq_refl eq_refl Hv). by injection Huniq as ->.
            -- specialize (Huniq _ _ _ _ Hd' Hb eq_refl eq_refl Hv). done.
        + assert (p' = p) as -> by congruence. assert (args' = args) as -> by congruence.
          apply Hloc in Hbd as [v Hv].
          intros E. assert (Hw : k_config c !! EnvVar k = Some v); [|by rewrite E, lookup_empty in Hw].
          rewrite C1. apply writes_some.
          * eexists. split; [apply Hwr; right; eauto|done].
          * intros k' s' Hw Hv'. apply Hwr in Hw as [(b2&Hb2&_&->&->)|(a'&Hd'&Hl)].
            -- specialize (Huniq _ _ _ _ Hb2 Hd eq_refl eq_refl Hv'). done.
            -- specialize (Huniq _ _ _ _ Hd' Hd eq_refl eq_refl Hv'). injection Huniq as -> ->. congruence.
      - intros Hne. destruct (decide (k_config i0 = ∅)) as [Hz|]; [|by left]. right.
        destruct (tell_writes (r_heap r) (filter (.∈ unset hp (pbinds p)) (binds_of args)) ++ local_writes LA (dials_of args)) as [|[k s] l] eqn:El.
        { rewrite C1 in Hne. cbn in Hne. done. }
        assert (Hw : (k, s) ∈ (k, s) :: l) by left. apply Hwr in Hw as [(b&Hb&Hz'&_)|(a&Hd&Hl)].
        + left. exists b. auto.
        + right. exists k, a. split; [auto|]. apply Hloc. eauto. }
    assert (Hshow : ∀ v, k_config c ≠ ∅ → v ∉ k_cm c → k_shown_env c v = Direct <$> k_config c !! v).
    { intros v Hn Hv. unfold k_shown_env. by rewrite decide_False, decide_False. }
    assert (Hcm : ∀ a n, a ∈ args → arg_name h a = Some n →
              EnvVar n ∈ k_cm c ↔ ∃ k x, a = ADial k x ∧ LA !! x = None).
    { intros a n Hin Hn. rewrite C3, Hic. split.
      - intros [?|(k&x&Hd&Hl&Hv)]; [set_solver|]. exists k, x. split; [|done]. eapply Huniq; eauto.
      - intros (k&x&->&Hl). right. exists k, x. cbn in Hn. injection Hn as ->. done. }
    split_and!.
    - intros b Hb. assert (Hex : k_ports c !! b_addr (deref h b) = Some (port_of h' b)).
      { rewrite C2, <-Hadr, <-Hpt by auto. apply exp_ins_some; [by apply elem_binds|].
        intros b' Hb' Heq. rewrite !Hadr in Heq. apply elem_binds in Hb'. by apply (O5 i j); auto. }
      split_and!; [done| | |].
      + exists (CleanName j), c, (b_addr (deref h b)). done.
      + intros Hn. rewrite <-Hpt by auto. rewrite Rpre; [by apply Hp0; auto|auto|]. by rewrite Hp0 by auto.
      + intros Hz. assert (Hw : k_config c !! EnvVar (b_key (deref h b)) = Some (host_port "0.0.0.0" (port_of h' b))).
        { rewrite C1. apply writes_some.
          * exists (b_key (deref h b)). split; [apply Hwr; left; by exists b|done].
          * intros k' s' Hw Hv. apply Hwr in Hw as [(b2&Hb2&_&->&->)|(a'&Hd'&_)].
            -- specialize (Huniq _ _ _ _ Hb2 Hb eq_refl eq_refl Hv). by injection Huniq as ->.
            -- specialize (Huniq _ _ _ _ Hd' Hb eq_refl eq_refl Hv). done. }
        unfold effective. rewrite Hshow, Hw; [done| |].
        * intros E. by rewrite E, lookup_empty in Hw.
        * intros Hin. apply (Hcm (ABind b)) in Hin as (?&?&?&_); done.
    - intros k a Hd Hbd. apply Hloc in Hbd as [v Hv].
      destruct (L1 _ _ Hv) as (b&Hb&Hba&->). pose proof Hb as Hb'. apply (pbinds_karg i) in Hb' as [j' Hj']; [|done].
      exists j', b. rewrite <-Hadr. split_and!; [done..|].
      rewrite Hpt in Hv by done.
      assert (Hw : k_config c !! EnvVar k = Some (host_port "localhost" (port_of h' b))).
      { rewrite C1. apply writes_some.
        * eexists. split; [apply Hwr; right; eauto|done].
        * intros k' s' Hw Hv'. apply Hwr in Hw as [(b2&Hb2&_&->&->)|(a'&Hd'&Hl)].
          -- specialize (Huniq _ _ _ _ Hb2 Hd eq_refl eq_refl Hv'). done.
          -- specialize (Huniq _ _ _ _ Hd' Hd eq_refl eq_refl Hv'). injection Huniq as -> ->. congruence. }
      unfold effective. rewrite Hshow, Hw; [done| |].
      + intros E. by rewrite E, lookup_empty in Hw.
      + intros Hin. apply (Hcm (ADial k a)) in Hin as (k2&x2&Heq&Hl); [|done..]. injection Heq as <- <-. congruence.
    - intros k a Hd Hnb.
      apply config_data_spec in Ec as (_&E2&_).
      assert (Hkd : (k, a) ∈ dials).
      { apply G8. right. exists i, p. split; [done|]. apply (pdials_karg i); eauto. }
      destruct (E2 k a Hkd) as (pn&b&Had&Hdat).
      { intros k' a' Hk' Hv. apply G8 in Hk' as [Hk'|(i'&p'&Hp'&Hk')]; [by apply elem_of_nil in Hk'|].
        apply (pdials_karg i') in Hk' as [j' Hj']; [|done]. eapply O6; [done|by apply Hself|done]. }
      destruct (G5 _ _ Had) as [(i'&p'&b'&Hp'&Hb'&Hba&Heq)|He]; [|by rewrite lookup_empty in He].
      injection Heq as -> ->. apply (pbinds_karg i') in Hb' as [j' Hj']; [|done].
      exists i', p', j', b'. split_and!; try done.
      intros Hdd. apply Hdir in Hdd. unfold effective, k_shown_env. rewrite decide_False by done.
      rewrite decide_True; [done|]. apply (Hcm (ADial k a)); [done..|]. exists k, a. split; [done|].
      apply eq_None_not_Some. by rewrite Hloc.
    - intros Hnd v. unfold k_shown_env. rewrite decide_True; [done|].
      destruct (decide (k_config c = ∅)) as [?|Hne]; [done|]. by apply Hdir in Hne.
  Qed.

  Theorem app_usable i j a :
    has_karg pods i j a →
    a ≠ ABad ∧ (∀ n opt, a ≠ AConf n false opt) ∧
    (∀ k x, a = ADial k x → ∃ i', bound_in h pods i' x).
  Proof using Hok Hg.
    intros Hka. pose proof Hka as (p&args&Hp&Hj&Hin).
    destruct app_correct as (_&port&Hc). destruct (Hc i p Hp) as (m&_&_&Hm).
    destruct (Hm j args Hj) as (i0&c&_&_&_&_&Hd&_).
    assert (Hrest : k_rest_ok (rest_of args) = true).
    { clear Hc Hm Hd. unfold gen_app in Hg.
      destruct (gen_pods f h pods ∅ []) as [[[[h' addrs] dials] outs']| |] eqn:Eg; [|done..].
      pose proof Hok as (O1&O2&O3&_).
      apply gen_pods_spec in Eg as (_&_&_&G4&_).
      2:{ exact app_wf. }
      2:{ intros i1 p1 b Hp1 Hb. apply (pbinds_karg i1) in Hb as [j1 Hj1]; [|done]. by eapply O2. }
      2:{ intros i1 i' p1 p' b Hp1 Hp' Hb Hb'. apply (pbinds_karg i1) in Hb as [j1 Hj1]; [|done].
          apply (pbinds_karg i') in Hb' as [j' Hj']; [|done]. by destruct (O3 _ _ _ _ _ Hj1 Hj'). }
      destruct (G4 i p Hp) as (hp&r&Ha&_&Hproc&_).
      destruct (app_wf _ _ Hp) as (W1&W2&W3).
      destruct (k_process_facts f hp (p_ws p) (p_o1 p) (p_o2 p) r W1 W2 W3) as (_&_&_&_&_&_&Rinst); [|done|].
      { intros b Hb. fold (pbinds p) in Hb. rewrite Ha by done. apply (pbinds_karg i) in Hb as [j1 Hj1]; [|done]. by eapply O2. }
      destruct (Rinst j) as [Hr _]; [by rewrite Hj|]. unfold args_at in Hr. by rewrite Hj in Hr. }
    assert (Hbadr : ∀ x, x ∈ rest_of args → match x with AConf _ true _ => true | _ => false end = true).
    { intros x Hx. unfold k_rest_ok in Hrest. rewrite forallb_forall in Hrest. apply Hrest. by apply elem_of_list_In. }
    split_and!.
    - intros ->. assert (Hx : ABad ∈ rest_of args) by (unfold rest_of; apply elem_of_list_omap; by eexists). by specialize (Hbadr _ Hx).
    - intros n opt ->. assert (Hx : AConf n false opt ∈ rest_of args) by (unfold rest_of; apply elem_of_list_omap; by eexists). by specialize (Hbadr _ Hx).
    - intros k x ->. destruct (app_bound_dec i x) as [?|Hn]; [by exists i|].
      destruct (Hd k x Hin Hn) as (i'&_&j'&b&_&Hb&Hba&_). exists i', j', b. done.
  Qed.
End app.
