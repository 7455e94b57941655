From Coq Require Import ZifyBool ZifyNat ZifyN Lia.
From Verif Require Import Timeout_Model Timeout_Spec.
Ltac Zify.zify_post_hook ::= Z.div_mod_to_equations.

Section timeout.
  Context {V E : Type} (r : result V E) (tmo : E) (zero : V).

  (** Invariant on shared state, for every schedule. *)
  Definition t_inv (s : tstate V E) : Prop :=
    (* the value variable *)
    (ts_g s = GRun → ts_val s = zero) ∧ (ts_g s ≠ GRun → ts_val s = rval r) ∧
    (* the error variable *)
    (ts_err s = None ∨ ts_err s = Some tmo ∨ (ts_err s = rerr r ∧ (ts_g s = GSend ∨ ts_g s = GDone))) ∧
    (ts_g s = GDone → ∃ v, ts_m s = MReading false ∨ ts_m s = MRead false v ∨ ∃ e, ts_m s = MRet false v e) ∧
    match ts_m s with
    | MSelect => (ts_g s = GRun ∨ ts_g s = GWrote → ts_err s = None) ∧ (ts_g s = GSend → ts_err s = rerr r) ∧ ts_g s ≠ GDone
    | MFired => ts_fired s = true
    | MReading true => ts_fired s = true ∧ (ts_err s = Some tmo ∨ (ts_err s = rerr r ∧ ts_g s = GSend))
    | MReading false => ts_g s = GDone ∧ ts_err s = rerr r
    | MRead true v => ts_fired s = true ∧ (ts_err s = Some tmo ∨ (ts_err s = rerr r ∧ ts_g s = GSend)) ∧ (v = zero ∨ v = rval r)
    | MRead false v => ts_g s = GDone ∧ ts_err s = rerr r ∧ v = rval r
    | MRet true v e => ts_fired s = true ∧ (e = Some tmo ∨ e = rerr r) ∧ (v = zero ∨ v = rval r)
    | MRet false v e => ts_g s = GDone ∧ v = rval r ∧ e = rerr r
    end.

  Lemma t_inv_init : t_inv (t_init zero).
  Proof. unfold t_inv; simpl. split_and!; try done; auto. Qed.

  Lemma t_inv_step s mv : t_inv s → t_inv (t_step r tmo s mv).
  Proof.
    unfold t_inv. destruct s as [v e g m f]. intros (H1&H2&H3&H4&H5).
    destruct mv; simpl in *.
    - split_and!; try done. destruct m as [| |[]|[]|[]]; try tauto; try naive_solver.
    - destruct g; simpl; try exact (conj H1 (conj H2 (conj H3 (conj H4 H5)))).
      + rewrite (H1 eq_refl) in *. split_and!; try done; try naive_solver.
        destruct m as [| |[]|[]|[]]; naive_solver.
      + split_and!; try done; try naive_solver.
        destruct m as [| |[]|[]|[]]; naive_solver.
    - destruct m as [| |b|b v0|b v0 e0]; simpl.
      + destruct f; simpl; [|exact (conj H1 (conj H2 (conj H3 (conj H4 H5))))].
        split_and!; try done; naive_solver.
      + split_and!; try done; try naive_solver.
      + split_and!; try done.
        * intros Hd. destruct (H4 Hd) as [v' [Hm|[?|[??]]]]; try done. injection Hm as ->.
          exists v. right. by left.
        * destruct b; [|naive_solver]. destruct H5 as [? H5]. split_and!; try done.
          destruct g; naive_solver.
      + split_and!; try done.
        * intros Hd. destruct (H4 Hd) as [v' [Hm|[Hm|[??]]]]; try done. injection Hm as -> ->.
          exists v'. right. right. by eexists.
        * destruct b; naive_solver.
      + exact (conj H1 (conj H2 (conj H3 (conj H4 H5)))).
    - destruct g, m as [| |[]|[]|[]]; simpl; try exact (conj H1 (conj H2 (conj H3 (conj H4 H5))));
        split_and!; try done; try (intros _; exists v; by left); try naive_solver.
  Qed.

  Lemma t_inv_run s sched : t_inv s → t_inv (t_run r tmo s sched).
  Proof.
    unfold t_run. revert s. induction sched as [|mv sched IH]; intros s Hs; [done|]. simpl.
    apply IH. by apply t_inv_step.
  Qed.

  Lemma t_complete sched v e :
    returned (t_run r tmo (t_init zero) sched) false v e → Result v e = r.
  Proof.
    unfold returned. intros H. pose proof (t_inv_run _ sched t_inv_init) as (_&_&_&_&Hm).
    rewrite H in Hm. destruct Hm as (_&->&->). by destruct r.
  Qed.

  Lemma t_timedout sched v e :
    returned (t_run r tmo (t_init zero) sched) true v e →
    ts_fired (t_run r tmo (t_init zero) sched) = true ∧ (e = Some tmo ∨ e = rerr r) ∧ (v = zero ∨ v = rval r).
  Proof.
    unfold returned. intros H. pose proof (t_inv_run _ sched t_inv_init) as (_&_&_&_&Hm).
    by rewrite H in Hm.
  Qed.

  (** With atomic reads. *)
  Definition t_ainv (s : tstate V E) : Prop :=
    t_inv s ∧
    match ts_m s with
    | MRead true v => v = ts_val s
    | MRet true v e => e = Some tmo ∨ Result v e = r
    | _ => True
    end.

  Lemma t_ainv_step s mv :
    t_ainv s → (match ts_m s, mv with MRead _ _, TGo => False | _, _ => True end) →
    t_ainv (t_step r tmo s mv).
  Proof.
    intros [Hi Ha] Hok. split; [by apply t_inv_step|].
    destruct Hi as (H1&H2&H3&H4&H5). destruct s as [v e g m f]. simpl in *.
    destruct mv; simpl; try done.
    - destruct g; simpl; destruct m; try done.
    - destruct m as [| |b|b v0|b v0 e0]; simpl; try done.
      + by destruct f.
      + by destruct b.
      + destruct b; [|done]. subst v0. destruct H5 as (_&[->|[-> Hg]]&_); [by left|right].
        rewrite (H2 ltac:(by rewrite Hg)). by destruct r.
    - destruct g; simpl; try done. by destruct m.
  Qed.

  Lemma t_ainv_run s sched :
    t_ainv s → atomic_reads r tmo s sched → t_ainv (t_run r tmo s sched).
  Proof.
    unfold t_run. revert s. induction sched as [|mv sched IH]; intros s Hs Hat; [done|]. destruct Hat as [H1 H2]. simpl.
    apply IH; [by apply t_ainv_step|done].
  Qed.

  Lemma t_atomic sched b v e :
    atomic_reads r tmo (t_init zero) sched →
    returned (t_run r tmo (t_init zero) sched) b v e → e = Some tmo ∨ Result v e = r.
  Proof.
    intros Ha H. destruct b; [|right; by eapply t_complete].
    pose proof (t_ainv_run _ sched (conj t_inv_init I) Ha) as [_ Hm]. unfold returned in H.
    by rewrite H in Hm.
  Qed.

  (** Once the deadline has passed, four steps of the caller suffice, whatever the callee does. *)
  Lemma t_bounded s :
    ts_fired s = true →
    ∃ b v e, returned (t_run r tmo s (replicate 4 TMain)) b v e.
  Proof.
    intros Hf. destruct s as [v e g m f]. simpl in Hf. subst.
    destruct m as [| |b|b v0|b v0 e0]; simpl; unfold returned; simpl; by eexists _, _, _.
  Qed.

  (** After the timeout case was taken, the goroutine never gets past its send. *)
  Definition timeout_taken (m : mphase V E) : Prop :=
    match m with MFired | MReading true | MRead true _ | MRet true _ _ => True | _ => False end.
  Lemma t_leak_step s mv :
    timeout_taken (ts_m s) → ts_g s ≠ GDone →
    timeout_taken (ts_m (t_step r tmo s mv)) ∧ ts_g (t_step r tmo s mv) ≠ GDone.
  Proof.
    destruct s as [v e g m f]. simpl. intros Hm Hg.
    destruct mv, g, m as [| |[]|[]|[]]; simpl in *; try done.
  Qed.
  Lemma t_leak_run s sched :
    timeout_taken (ts_m s) → ts_g s ≠ GDone → ts_g (t_run r tmo s sched) ≠ GDone.
  Proof.
    unfold t_run. revert s. induction sched as [|mv sched IH]; intros s Hm Hg; [done|]. simpl.
    destruct (t_leak_step s mv Hm Hg). by apply IH.
  Qed.
  Lemma t_leak sched v e sched' :
    returned (t_run r tmo (t_init zero) sched) true v e →
    ts_g (t_run r tmo (t_init zero) (sched ++ sched')) ≠ GDone.
  Proof.
    unfold returned. intros H. unfold t_run. rewrite fold_left_app. fold (t_run r tmo (t_init zero) sched).
    apply t_leak_run; [by rewrite H|]. intros Hd.
    pose proof (t_inv_run _ sched t_inv_init) as (_&_&_&H4&_).
    destruct (H4 Hd) as [v' [Hm|[Hm|[e' Hm]]]]; by rewrite H in Hm.
  Qed.
End timeout.

(** ** Faults *)
Section fault.
  Context {V E : Type}.
  Lemma delay_ok (max_delay : Z) (rnd : Z → Z) (service : result V E) :
    (∀ n, 0 < n → 0 ≤ rnd n < n)%Z → (0 ≤ max_delay ≤ 9223372036854)%Z →
    ∃ s, delay_inject max_delay rnd service = FRet s true service ∧ (0 ≤ s ≤ max_delay * 1000000)%Z.
  Proof.
    intros Hr Hm. unfold delay_inject, int63n.
    assert (wrap64 (max_delay + 1) = max_delay + 1)%Z as -> by (unfold wrap64; rewrite Z.mod_small; lia).
    destruct (Z.leb_spec (max_delay + 1) 0); [lia|]. specialize (Hr (max_delay + 1)%Z ltac:(lia)).
    eexists. split; [done|]. unfold wrap64. rewrite Z.mod_small; lia.
  Qed.
  Lemma prob_ok (p d : Z) (zero : V) (ferr : E) service :
    (0 ≤ d < 100)%Z →
    prob_inject p d zero ferr service =
      if bool_decide (d < p)%Z then FRet 0 false (Result zero (Some ferr)) else FRet 0 true service.
  Proof. intros _. unfold prob_inject. destruct (Z.ltb_spec d p); case_bool_decide; done || lia. Qed.

  (** Exactly [p] of the 100 equally likely draws fail. *)
  Lemma prob_count p :
    p ≤ 100 → length (List.filter (λ d, bool_decide (Z.of_nat d < Z.of_nat p)%Z) (seq 0 100)) = p.
  Proof.
    intros Hp. replace 100 with (p + (100 - p)) by lia. rewrite seq_app, List.filter_app, app_length.
    assert (∀ n s, s + n ≤ p → length (List.filter (λ d, bool_decide (Z.of_nat d < Z.of_nat p)%Z) (seq s n)) = n) as H1.
    { induction n as [|n IH]; intros s Hs; [done|]. cbn [seq List.filter].
      rewrite bool_decide_true by lia. cbn [length]. rewrite IH; lia. }
    assert (∀ n s, p ≤ s → length (List.filter (λ d, bool_decide (Z.of_nat d < Z.of_nat p)%Z) (seq s n)) = 0) as H2.
    { induction n as [|n IH]; intros s Hs; [done|]. cbn [seq List.filter].
      rewrite bool_decide_false by lia. apply IH. lia. }
    rewrite H1, H2 by lia. lia.
  Qed.
End fault.
