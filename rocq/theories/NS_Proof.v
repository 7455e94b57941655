(** * Proofs about building the IR *)
From Coq Require Import Lia.
From Verif Require Import NS_Spec.

(** Membership in concatenations, by search. *)
Ltac mem_in :=
  match goal with
  | |- _ ∈ _ ++ _ => apply elem_of_app; first [left; solve [mem_in] | right; solve [mem_in]]
  | |- _ ∈ ?x :: _ => apply elem_of_cons; first [left; reflexivity | right; solve [mem_in]]
  | |- _ ∈ _ => assumption
  | |- _ ∨ _ => first [assumption | left; solve [mem_in] | right; solve [mem_in]]
  | |- ∃ _, _ => assumption
  | |- _ = _ => assumption
  end.
Ltac mem := first [solve [mem_in] | set_solver].

Section proofs.
Context (getdef : wiring).
Implicit Types (l : list nspace) (n m j p : nat) (name c k : string) (v : node) (s : state) (t : list event) (ws : list waiter) (w : waiter).

(** ** Executions *)
Lemma run_app s ls1 ls2 : run getdef s (ls1 ++ ls2) = match run getdef s ls1 with Some s1 => run getdef s1 ls2 | None => None end.
Proof. revert s. induction ls1 as [|x ls1 IH]; intros s; simpl; [done|]. destruct (step getdef s x); [apply IH|done]. Qed.
Lemma run_snoc s ls x s' : run getdef s (ls ++ [x]) = Some s' → ∃ s1, run getdef s ls = Some s1 ∧ step getdef s1 x = Some s'.
Proof. rewrite run_app. destruct (run getdef s ls) as [s1|]; [|done]. simpl. destruct (step getdef s1 x) eqn:?; [|done]. intros [= <-]. eauto. Qed.

(** ** Lookups *)
Definition seen l n name : option (option node) := match l !! n with Some x => n_seen x !! name | None => None end.
Definition added l n k : Prop := ∃ x, l !! n = Some x ∧ k ∈ n_added x.
Lemma seen_alter_same f l i n name : (∀ x, n_seen (f x) = n_seen x) → seen (alter f i l) n name = seen l n name.
Proof.
  intros Hf. unfold seen. destruct (decide (i = n)) as [->|].
  - rewrite list_lookup_alter. destruct (l !! n); [|done]. simpl. by rewrite Hf.
  - by rewrite list_lookup_alter_ne.
Qed.
Lemma seen_set l i n k name r : i < length l →
  seen (alter (set_seen k r) i l) n name = if decide (i = n ∧ k = name) then Some r else seen l n name.
Proof.
  intros Hi. unfold seen. destruct (decide (i = n)) as [->|].
  - rewrite list_lookup_alter. destruct (lookup_lt_is_Some_2 l n Hi) as [x ->]. simpl. case_decide as Hd.
    + destruct Hd as [_ ->]. by rewrite lookup_insert.
    + rewrite lookup_insert_ne; [done|]. intros ->. by apply Hd.
  - rewrite list_lookup_alter_ne by done. case_decide as Hd; [|done]. by destruct Hd.
Qed.
Lemma added_alter_same f l i n k : (∀ x, n_added (f x) = n_added x) → added (alter f i l) n k ↔ added l n k.
Proof.
  intros Hf. unfold added. destruct (decide (i = n)) as [->|].
  - rewrite list_lookup_alter. destruct (l !! n) as [x|]; simpl; [|done]. split; intros (y & [= <-] & Hy); eexists; (split; [done|]); by rewrite Hf in *.
  - by rewrite list_lookup_alter_ne.
Qed.
Lemma added_mark l i n k k' : i < length l → added (alter (mark_added k) i l) n k' ↔ (i = n ∧ k = k') ∨ added l n k'.
Proof.
  intros Hi. unfold added. destruct (decide (i = n)) as [->|].
  - rewrite list_lookup_alter. destruct (lookup_lt_is_Some_2 l n Hi) as [x ->]. simpl. split.
    + intros (y & [= <-] & Hy). simpl in Hy. apply elem_of_union in Hy as [->%elem_of_singleton|Hy]; [by left|right; eauto].
    + intros [[_ ->]|(y & [= <-] & Hy)]; eexists; (split; [done|]); simpl; mem.
  - rewrite list_lookup_alter_ne by done. naive_solver.
Qed.
Lemma is_added_spec s n k : is_added s n k = true ↔ added (nss s) n k.
Proof.
  unfold is_added, added. destruct (nss s !! n) as [x|]; [rewrite bool_decide_eq_true|]; naive_solver.
Qed.

(** Same parents and same handlers. *)
Definition skel l l' : Prop := ∀ n, (λ x, (n_parent x, n_accepts x)) <$> l !! n = (λ x, (n_parent x, n_accepts x)) <$> l' !! n.
Lemma skel_refl l : skel l l.
Proof. done. Qed.
Lemma skel_sym l l' : skel l l' → skel l' l.
Proof. intros H n. by rewrite H. Qed.
Lemma skel_trans l1 l2 l3 : skel l1 l2 → skel l2 l3 → skel l1 l3.
Proof. intros H1 H2 n. by rewrite H1. Qed.
Lemma skel_alter f l i : (∀ x, n_parent (f x) = n_parent x ∧ n_accepts (f x) = n_accepts x) → skel l (alter f i l).
Proof.
  intros Hf n. destruct (decide (i = n)) as [->|].
  - rewrite list_lookup_alter. destruct (l !! n) as [x|]; [|done]. simpl. destruct (Hf x) as [-> ->]. done.
  - by rewrite list_lookup_alter_ne.
Qed.
Lemma skel_lookup l l' n x : skel l l' → l !! n = Some x → ∃ x', l' !! n = Some x' ∧ n_parent x' = n_parent x ∧ n_accepts x' = n_accepts x.
Proof. intros H Hx. specialize (H n). rewrite Hx in H. destruct (l' !! n) as [x'|]; [|done]. injection H as H1 H2. exists x'. done. Qed.
Lemma skel_length l l' : skel l l' → length l = length l'.
Proof.
  intros H. apply Nat.le_antisymm; apply Nat.nlt_ge; intros Hlt.
  - destruct (lookup_lt_is_Some_2 l (length l') Hlt) as [x Hx]. destruct (skel_lookup _ _ _ _ H Hx) as (x' & Hx' & _). apply lookup_lt_Some in Hx'. lia.
  - destruct (lookup_lt_is_Some_2 l' (length l) Hlt) as [x Hx]. destruct (skel_lookup _ _ _ _ (skel_sym _ _ H) Hx) as (x' & Hx' & _). apply lookup_lt_Some in Hx'. lia.
Qed.
Lemma nearest_skel l l' ty n j : skel l l' → nearest l ty n j → nearest l' ty n j.
Proof.
  intros H. induction 1 as [n x Hx Ha|n x p j Hx Ha Hp _ IH]; destruct (skel_lookup _ _ _ _ H Hx) as (x' & Hx' & Hpar & Hacc).
  - eapply near_here; [done|by rewrite Hacc].
  - eapply near_up; [done|by rewrite Hacc|by rewrite Hpar|done].
Qed.
Lemma nearest_app l x ty n j : nearest l ty n j → nearest (l ++ [x]) ty n j.
Proof.
  induction 1 as [n y Hy Ha|n y p j Hy Ha Hp _ IH].
  - eapply near_here; [by apply lookup_app_l_Some|done].
  - eapply near_up; [by apply lookup_app_l_Some|done|done|done].
Qed.
Lemma nearest_fun l ty n j j' : nearest l ty n j → nearest l ty n j' → j = j'.
Proof.
  intros H. revert j'. induction H as [n x Hx Ha|n x p j Hx Ha Hp _ IH]; intros j' H'; inversion H'; subst; simplify_eq; auto; congruence.
Qed.
Lemma nearest_lt l ty n j : nearest l ty n j → n < length l ∧ j < length l.
Proof. induction 1 as [n x Hx Ha|n x p j Hx Ha Hp _ IH]; apply lookup_lt_Some in Hx; naive_solver. Qed.
Lemma nearest_accepts l ty n j : nearest l ty n j → ∃ x, l !! j = Some x ∧ n_accepts x ty = true.
Proof. induction 1; eauto. Qed.
Lemma home_skel l l' n name j c : skel l l' → home getdef l n name j c → home getdef l' n name j c.
Proof. intros H (d & Hd & -> & Hn). exists d. split; [done|]. split; [done|]. by eapply nearest_skel. Qed.
Lemma home_app l x n name j c : home getdef l n name j c → home getdef (l ++ [x]) n name j c.
Proof. intros (d & Hd & -> & Hn). exists d. split; [done|]. split; [done|]. by apply nearest_app. Qed.
Lemma home_fun l n name j c j' c' : home getdef l n name j c → home getdef l n name j' c' → j = j' ∧ c = c'.
Proof. intros (d & Hd & -> & Hn) (d' & Hd' & -> & Hn'). simplify_eq. split; [by eapply nearest_fun|done]. Qed.
Lemma home_self_alias l n name d : home getdef l n name n name → getdef name = Some d → w_name d = name.
Proof. intros (d' & Hd' & He & _) Hd. congruence. Qed.

(** ** What resuming waiting calls does *)
Definition wn w : nat := match w with WAlias n _ => n | WOuter n _ _ _ => n end.
Definition wname w : string := match w with WAlias _ k => k | WOuter _ k _ _ => k end.

Definition edge_event (s : state) w v : list event :=
  match w with
  | WAlias _ _ => []
  | WOuter n name edge proxy => if is_added s n (nd_name v) then [] else if negb (nd_meta v) && edge && negb proxy then [EEdge n name v] else []
  end.
Definition resume_events (r : option node) (s : state) w : list event :=
  match r with Some v => edge_event s w v | None => [] end ++ [EGot (wn w) (wname w) r].
Lemma resume_trace r s w : trace (resume r s w) = trace s ++ resume_events r s w.
Proof.
  unfold resume_events, edge_event. destruct w as [n name|n name edge proxy]; [by destruct r|]. destruct r as [v|]; [|done]. simpl.
  destruct (is_added s n (nd_name v)); simpl; [done|]. destruct (negb (nd_meta v) && edge && negb proxy); simpl; [|done]. by rewrite <- (assoc_L (++)).
Qed.
Lemma resume_rest r s w : stack (resume r s w) = stack s ∧ queue (resume r s w) = queue s ∧ next (resume r s w) = next s ∧ status_of (resume r s w) = status_of s.
Proof.
  destruct w as [n name|n name edge proxy]; [done|]. destruct r as [v|]; [|done]. simpl.
  destruct (is_added s n (nd_name v)); simpl; [done|]. by destruct (negb (nd_meta v) && edge && negb proxy).
Qed.
Lemma resume_skel r s w : skel (nss s) (nss (resume r s w)).
Proof.
  destruct w as [n name|n name edge proxy]; simpl; [by apply skel_alter|]. destruct r as [v|]; simpl; [|done].
  destruct (is_added s n (nd_name v)); simpl; [by apply skel_alter|]. destruct (negb (nd_meta v) && edge && negb proxy); simpl.
  - eapply skel_trans; [|by apply skel_alter]. by apply skel_alter.
  - eapply skel_trans; [|by apply skel_alter]. by apply skel_alter.
Qed.
Lemma resume_seen_some v s w n name : wn w < length (nss s) →
  seen (nss (resume (Some v) s w)) n name = if decide (wn w = n ∧ wname w = name) then Some (Some v) else seen (nss s) n name.
Proof.
  intros Hw. destruct w as [i k|i k edge proxy]; simpl in *; [by apply seen_set|].
  destruct (is_added s i (nd_name v)); simpl; [by apply seen_set|].
  destruct (negb (nd_meta v) && edge && negb proxy); simpl; (rewrite seen_set by (by rewrite alter_length)); (case_decide; [done|]); by apply seen_alter_same.
Qed.
Lemma resume_seen_none s w n name : wn w < length (nss s) →
  seen (nss (resume None s w)) n name =
    match w with WAlias i k => if decide (i = n ∧ k = name) then Some None else seen (nss s) n name | _ => seen (nss s) n name end.
Proof. intros Hw. destruct w as [i k|i k edge proxy]; simpl in *; [by apply seen_set|done]. Qed.
Lemma resume_added s w v n k : wn w < length (nss s) →
  added (nss (resume (Some v) s w)) n k ↔ added (nss s) n k ∨ (match w with WOuter i _ _ _ => i = n ∧ nd_name v = k | _ => False end).
Proof.
  intros Hw. destruct w as [i name|i name edge proxy]; simpl in *; [rewrite added_alter_same by done; tauto|].
  destruct (is_added s i (nd_name v)) eqn:Ha; simpl.
  - rewrite added_alter_same by done. apply is_added_spec in Ha. split; [tauto|]. intros [|[-> <-]]; done.
  - destruct (negb (nd_meta v) && edge && negb proxy); simpl; rewrite added_alter_same by done; rewrite added_mark by done; tauto.
Qed.
Lemma resume_added_none s w n k : added (nss (resume None s w)) n k ↔ added (nss s) n k.
Proof. destruct w as [i name|i name edge proxy]; simpl; [by rewrite added_alter_same|done]. Qed.

Lemma foldl_rest r ws s : stack (foldl (resume r) s ws) = stack s ∧ queue (foldl (resume r) s ws) = queue s ∧
  next (foldl (resume r) s ws) = next s ∧ status_of (foldl (resume r) s ws) = status_of s.
Proof.
  revert s. induction ws as [|w ws IH]; intros s; [done|]. simpl. destruct (IH (resume r s w)) as (-> & -> & -> & ->). apply resume_rest.
Qed.
Lemma foldl_skel r ws s : skel (nss s) (nss (foldl (resume r) s ws)).
Proof. revert s. induction ws as [|w ws IH]; intros s; [done|]. simpl. eapply skel_trans; [apply resume_skel|apply IH]. Qed.

Lemma deliver_cases r s :
  (∃ id st, stack s = FRequest id :: st ∧
     deliver r s = emit [EEnd id (match r with Some _ => true | None => false end)]
                     (set_status (match r with Some _ => Going | None => Failed end) (set_stack st s))) ∨
  ((∀ id st, stack s ≠ FRequest id :: st) ∧ deliver r s = s).
Proof.
  unfold deliver. destruct (stack s) as [|[| |id] st] eqn:Hs; [right; split; [naive_solver|done]..|left; exists id, st; split; [done|by destruct r]].
Qed.

(** ** Where calls lead *)
Definition is_alias name : Prop := ∃ d, getdef name = Some d ∧ w_name d ≠ name.
(** A waiting call of a name with its definition; outer ones are of rejected types. *)
Definition wok l w : Prop :=
  match w with
  | WAlias n name => n < length l ∧ is_alias name
  | WOuter n name _ proxy => n < length l ∧ ∃ d x, getdef name = Some d ∧ w_name d = name ∧ w_proxy d = proxy ∧ l !! n = Some x ∧ n_accepts x (w_type d) = false
  end.
Lemma wok_skel l l' w : skel l l' → wok l w → wok l' w.
Proof.
  intros H. pose proof (skel_length _ _ H) as Hl. destruct w as [n name|n name e p]; simpl; rewrite Hl; [done|]. intros [Hn (d & x & Hd & Hw & Hp & Hx & Ha)].
  split; [done|]. destruct (skel_lookup _ _ _ _ H Hx) as (x' & Hx' & _ & Hacc). exists d, x'. rewrite Hacc. done.
Qed.
Lemma wok_app l x w : wok l w → wok (l ++ [x]) w.
Proof.
  destruct w as [n name|n name e p]; simpl; rewrite app_length; simpl; [intros [? ?]; split; [lia|done]|]. intros [Hn (d & y & Hd & Hw & Hp & Hx & Ha)].
  split; [lia|]. exists d, y. split_and!; try done. by apply lookup_app_l_Some.
Qed.
Lemma wok_lt l w : wok l w → wn w < length l.
Proof. destruct w; simpl; naive_solver. Qed.
(** The call (if any) that waits for the last waiting one. *)
Definition ends m k ws : nat * string := match last ws with Some w => (wn w, wname w) | None => (m, k) end.
Fixpoint chain m ws : Prop :=
  match ws with
  | [] => True
  | WAlias n _ :: ws => n = m ∧ chain n ws
  | WOuter n _ _ _ :: ws => chain n ws
  end.
Definition wedge w (e : bool) : Prop := match w with WAlias _ _ => True | WOuter _ _ e' _ => e' = e end.
(** All waiting calls stand for the definition [c]. *)
Definition wfor w c : Prop := ∃ d, getdef (wname w) = Some d ∧ w_name d = c.

Definition older l : Prop := ∀ n x p, l !! n = Some x → n_parent x = Some p → p < n.

Lemma ends_snoc m k ws n name w : ends m k ws = (n, name) → ends m k (ws ++ [w]) = (wn w, wname w).
Proof. intros _. unfold ends. by rewrite last_snoc. Qed.
Lemma ends_app_cons m k new w : ends m k (new ++ [w]) = (wn w, wname w).
Proof. unfold ends. by rewrite last_snoc. Qed.

Lemma resolve_spec fuel l n name edge ws : older l → n < length l → canonical getdef →
  match resolve getdef fuel l n name edge ws with
  | OHit m k v ws' => ∃ new, ws' = new ++ ws ∧ seen l m k = Some (Some v) ∧ m < length l ∧ Forall (wok l) new ∧
      (∀ j c, home getdef l m k j c → Forall (λ w, home getdef l (wn w) (wname w) j c) new) ∧
      ends m k new = (n, name) ∧ Forall (λ w, wedge w edge) new ∧ (chain n ws → chain m ws') ∧
      (∀ d, getdef name = Some d → Forall (λ w, wfor w (w_name d)) new)
  | ONil => True
  | OError m k ws' => ∃ new, ws' = new ++ ws ∧ m < length l ∧ Forall (wok l) new ∧
      Forall (λ w, seen l (wn w) (wname w) = None) new ∧ ends m k new = (n, name)
  | OBuild m k proxy ws' => ∃ new, ws' = new ++ ws ∧ seen l m k = None ∧ home getdef l m k m k ∧ Forall (wok l) new ∧
      (∃ d, getdef k = Some d ∧ w_proxy d = proxy) ∧
      Forall (λ w, home getdef l (wn w) (wname w) m k) new ∧ ends m k new = (n, name) ∧ Forall (λ w, wedge w edge) new ∧
      (chain n ws → chain m ws') ∧ (∃ d, getdef name = Some d ∧ w_name d = k)
  end.
Proof.
  intros Hold Hn Hcan. revert n name ws Hn. induction fuel as [|fuel IH]; intros n name ws Hn; cbn [resolve].
  { exists []. split; [done|]. split; [done|]. split; [constructor|]. split; [constructor|done]. }
  destruct (lookup_lt_is_Some_2 l n Hn) as [x Hx]. rewrite Hx.
  assert (seen l n name = n_seen x !! name) as Hs by (unfold seen; by rewrite Hx).
  destruct (n_seen x !! name) as [[v|]|]; [| done |].
  { exists []. split; [done|]. split; [done|]. split; [done|]. split; [constructor|]. split; [constructor|]. split; [done|]. split; [constructor|]. split; [done|constructor]. }
  destruct (getdef name) as [d|] eqn:Hd.
  2:{ exists []. split; [done|]. split; [done|]. split; [constructor|]. split; [constructor|done]. }
  case_bool_decide as Hne.
  - (* an alias *)
    assert (wok l (WAlias n name)) as Hw by (split; [done|exists d; done]).
    specialize (IH n (w_name d) (WAlias n name :: ws) Hn).
    assert (∀ j c, home getdef l n (w_name d) j c → home getdef l n name j c) as Hhome.
    { intros j c (d' & Hd' & -> & Hnear). rewrite (Hcan _ _ Hd) in Hd'. injection Hd' as <-. exists d. done. }
    destruct (resolve getdef fuel l n (w_name d) edge (WAlias n name :: ws)) as [m k v ws'| |m k ws'|m k proxy ws']; [| done | |].
    + destruct IH as (new & -> & H1 & H2 & H3 & H4 & H5 & H6 & H7 & H8). exists (new ++ [WAlias n name]).
      split; [by rewrite <- (assoc_L (++))|]. split; [done|]. split; [done|]. split; [apply Forall_app; split; [done|constructor; [done|constructor]]|].
      split.
      { intros j c Hh. apply Forall_app. split; [by apply H4|]. constructor; [|constructor]. apply Hhome. cbn [wn wname].
        destruct new as [|w0 new0 _] using rev_ind; [unfold ends in H5; simpl in H5; by simplify_eq|].
        rewrite ends_app_cons in H5. injection H5 as Hwn Hwk. specialize (H4 _ _ Hh). apply Forall_app in H4 as [_ H4]. apply Forall_cons_1 in H4 as [H4 _]. by rewrite Hwn, Hwk in H4. }
      split; [apply ends_app_cons|]. split; [apply Forall_app; split; [done|by repeat constructor]|].
      split; [intros Hc; apply H7; by simpl|]. intros d' [= <-]. apply Forall_app. split; [by apply H8, (Hcan name)|].
      constructor; [|constructor]. exists d. done.
    + destruct IH as (new & -> & H2 & H3 & H4 & H5). exists (new ++ [WAlias n name]).
      split; [by rewrite <- (assoc_L (++))|]. split; [done|]. split; [apply Forall_app; split; [done|constructor; [done|constructor]]|].
      split; [apply Forall_app; split; [done|by repeat constructor]|apply ends_app_cons].
    + destruct IH as (new & -> & H1 & H2 & H3 & H4 & H5 & H6 & H7 & H8 & H9). exists (new ++ [WAlias n name]).
      split; [by rewrite <- (assoc_L (++))|]. split; [done|]. split; [done|]. split; [apply Forall_app; split; [done|constructor; [done|constructor]]|].
      split; [done|].
      assert (∃ d0, getdef (w_name d) = Some d0 ∧ w_name d0 = k) as H9' by done. destruct H9 as (d0 & Hd0 & <-).
      rewrite (Hcan _ _ Hd) in Hd0. injection Hd0 as <-.
      split.
      { apply Forall_app. split; [done|]. constructor; [|constructor]. apply Hhome. cbn [wn wname].
        destruct new as [|w0 new0 _] using rev_ind; [unfold ends in H6; simpl in H6; by simplify_eq|].
        rewrite ends_app_cons in H6. injection H6 as Hwn Hwk. apply Forall_app in H5 as [_ H5]. apply Forall_cons_1 in H5 as [H5 _]. by rewrite Hwn, Hwk in H5. }
      split; [apply ends_app_cons|]. split; [apply Forall_app; split; [done|by repeat constructor]|].
      split; [intros Hc; apply H8; by simpl|]. exists d. done.
  - destruct (n_accepts x (w_type d)) eqn:Hacc.
    + (* built here *)
      exists []. split; [done|]. split; [done|]. split; [exists d; split; [done|]; split; [done|by eapply near_here]|]. split; [constructor|]. split; [eauto|].
      split; [constructor|]. split; [done|]. split; [constructor|]. split; [done|]. eauto.
    + destruct (n_parent x) as [p|] eqn:Hp.
      2:{ exists []. split; [done|]. split; [done|]. split; [constructor|]. split; [constructor|done]. }
      pose proof (Hold _ _ _ Hx Hp) as Hpn.
      assert (wok l (WOuter n name edge (w_proxy d))) as Hw by (split; [done|exists d, x; done]).
      specialize (IH p name (WOuter n name edge (w_proxy d) :: ws) ltac:(lia)).
      assert (∀ j c, home getdef l p name j c → home getdef l n name j c) as Hhome.
      { intros j c (d' & Hd' & -> & Hnear). exists d'. split; [done|]. split; [done|]. assert (d' = d) as -> by congruence. by eapply near_up. }
      destruct (resolve getdef fuel l p name edge (WOuter n name edge (w_proxy d) :: ws)) as [m k v ws'| |m k ws'|m k proxy ws']; [| done | |].
      * destruct IH as (new & -> & H1 & H2 & H3 & H4 & H5 & H6 & H7 & H8). exists (new ++ [WOuter n name edge (w_proxy d)]).
        split; [by rewrite <- (assoc_L (++))|]. split; [done|]. split; [done|]. split; [apply Forall_app; split; [done|constructor; [done|constructor]]|].
        split.
        { intros j c Hh. apply Forall_app. split; [by apply H4|]. constructor; [|constructor]. apply Hhome. cbn [wn wname].
          destruct new as [|w0 new0 _] using rev_ind; [unfold ends in H5; simpl in H5; by simplify_eq|].
          rewrite ends_app_cons in H5. injection H5 as Hwn Hwk. specialize (H4 _ _ Hh). apply Forall_app in H4 as [_ H4]. apply Forall_cons_1 in H4 as [H4 _]. by rewrite Hwn, Hwk in H4. }
        split; [apply ends_app_cons|]. split; [apply Forall_app; split; [done|by repeat constructor]|].
        split; [intros Hc; apply H7; by simpl|]. intros d' [= <-]. apply Forall_app. split; [by apply H8|].
        constructor; [|constructor]. exists d. done.
      * destruct IH as (new & -> & H2 & H3 & H4 & H5). exists (new ++ [WOuter n name edge (w_proxy d)]).
        split; [by rewrite <- (assoc_L (++))|]. split; [done|]. split; [apply Forall_app; split; [done|constructor; [done|constructor]]|].
        split; [apply Forall_app; split; [done|by repeat constructor]|apply ends_app_cons].
      * destruct IH as (new & -> & H1 & H2 & H3 & H4 & H5 & H6 & H7 & H8 & H9). exists (new ++ [WOuter n name edge (w_proxy d)]).
        split; [by rewrite <- (assoc_L (++))|]. split; [done|]. split; [done|]. split; [apply Forall_app; split; [done|constructor; [done|constructor]]|].
        split; [done|]. split.
        { apply Forall_app. split; [done|]. constructor; [|constructor]. apply Hhome. cbn [wn wname].
          destruct new as [|w0 new0 _] using rev_ind; [unfold ends in H6; simpl in H6; by simplify_eq|].
          rewrite ends_app_cons in H6. injection H6 as Hwn Hwk. apply Forall_app in H5 as [_ H5]. apply Forall_cons_1 in H5 as [H5 _]. by rewrite Hwn, Hwk in H5. }
        split; [apply ends_app_cons|]. split; [apply Forall_app; split; [done|by repeat constructor]|].
        split; [intros Hc; apply H8; by simpl|]. rewrite <- Hd. done.
Qed.
(** With a home, a call never fails by itself. *)
Lemma resolve_home fuel l n name edge ws j c : canonical getdef → older l → home getdef l n name j c →
  (match getdef name with Some d => if bool_decide (w_name d = name) then n < fuel else S n < fuel | None => True end) →
  match resolve getdef fuel l n name edge ws with OError _ _ _ => False | OBuild m k _ _ => m = j ∧ k = c | _ => True end.
Proof.
  intros Hcan Hold. revert n name ws. induction fuel as [|fuel IH]; intros n name ws (d & Hd & -> & Hnear) Hf; rewrite Hd in Hf.
  { case_bool_decide; lia. }
  cbn [resolve]. pose proof (nearest_lt _ _ _ _ Hnear) as [Hn _]. destruct (lookup_lt_is_Some_2 l n Hn) as [x Hx]. rewrite Hx.
  destruct (n_seen x !! name) as [[v|]|]; [done|done|]. rewrite Hd. destruct (decide (w_name d = name)) as [Hne|Hne].
  - rewrite bool_decide_false by (by intros ?). rewrite bool_decide_true in Hf by done. inversion Hnear as [n' x' Hx' Ha|n' x' p j' Hx' Ha Hp Hnear']; subst; simplify_eq.
    + by rewrite Ha.
    + rewrite Ha, Hp. apply IH; [exists d; split; [done|split; [done|done]]|]. rewrite Hd, bool_decide_true by done. specialize (Hold _ _ _ Hx Hp). lia.
  - rewrite bool_decide_true by done. rewrite bool_decide_false in Hf by done. apply IH; [exists d; split; [by apply (Hcan name)|done]|].
    rewrite (Hcan _ _ Hd), bool_decide_true by done. lia.
Qed.

(** ** Well-formed states (no guard needed) *)
Record wf s : Prop := Wf {
  f_older : older (nss s);
  f_root : ∃ x, nss s !! 0 = Some x ∧ n_accepts x = (λ _, true) ∧ n_parent x = None;
  f_build : ∀ j c pr ws, FBuild j c pr ws ∈ stack s →
      home getdef (nss s) j c j c ∧ (∃ d, getdef c = Some d ∧ w_proxy d = pr) ∧ Forall (wok (nss s)) ws ∧
      Forall (λ w, home getdef (nss s) (wn w) (wname w) j c) ws ∧ chain j ws }.
Lemma older_skel l l' : skel l l' → older l → older l'.
Proof.
  intros H Ho n x p Hx Hp. destruct (skel_lookup _ _ _ _ (skel_sym _ _ H) Hx) as (x' & Hx' & Hpar & _). eapply Ho; [exact Hx'|congruence].
Qed.
Lemma wf_skel s s' : skel (nss s) (nss s') → (∀ f, f ∈ stack s' → f ∈ stack s ∨ ∃ id, f = FRequest id ∨ f = FDeferred id) → wf s → wf s'.
Proof.
  intros H Hst [H1 H2 H3]. split.
  - by eapply older_skel.
  - destruct H2 as (x & Hx & Ha & Hp). destruct (skel_lookup _ _ _ _ H Hx) as (x' & Hx' & Hpar & Hacc). exists x'. split; [done|]. split; congruence.
  - intros j c p ws Hin. apply Hst in Hin as [Hin|[id [?|?]]]; [|done|done]. destruct (H3 _ _ _ _ Hin) as (Ha & Hb & Hc & Hd & He). split; [by eapply home_skel|].
    split; [done|]. split; [eapply Forall_impl; [exact Hc|]; intros w; by apply wok_skel|]. split; [|done].
    eapply Forall_impl; [exact Hd|]. intros w. by apply home_skel.
Qed.
Lemma deliver_nss r s : nss (deliver r s) = nss s.
Proof. destruct (deliver_cases r s) as [(id & st & _ & ->)|[_ ->]]; done. Qed.
Lemma deliver_stack r s f : f ∈ stack (deliver r s) → f ∈ stack s.
Proof. destruct (deliver_cases r s) as [(id & st & Hst & ->)|[_ ->]]; [|done]. simpl. rewrite Hst. by right. Qed.
Lemma answer_skel r ws s : skel (nss s) (nss (answer r ws s)).
Proof. unfold answer. rewrite deliver_nss. apply foldl_skel. Qed.
Lemma answer_stack r ws s f : f ∈ stack (answer r ws s) → f ∈ stack s.
Proof. unfold answer. intros H%deliver_stack. destruct (foldl_rest r ws s) as (Heq & _). by rewrite Heq in H. Qed.
Lemma finish_skel n name proxy ws r s : skel (nss s) (nss (finish_build n name proxy ws r s)).
Proof.
  unfold finish_build. destruct r as [v|]; [|apply (answer_skel None ws (emit [EFailed n name; EGot n name None] s))].
  eapply skel_trans; [|apply answer_skel]. cbn [emit alter_ns nss]. eapply skel_trans; [|by apply skel_alter].
  destruct (is_added (emit [EBuilt n name v] s) n (nd_name v)); [done|]. destruct proxy; cbn [emit alter_ns nss]; by apply skel_alter.
Qed.
Lemma finish_stack n name proxy ws r s f : f ∈ stack (finish_build n name proxy ws r s) → f ∈ stack s.
Proof.
  unfold finish_build. destruct r as [v|]; intros H%answer_stack; [|done]. cbn [emit alter_ns stack] in H.
  destruct (is_added (emit [EBuilt n name v] s) n (nd_name v)); [done|]. by destruct proxy.
Qed.
Lemma call_cases s n name edge :
  match resolve getdef (fuel_for n) (nss s) n name edge [] with
  | OHit m k v ws => call getdef s n name edge = answer (Some v) ws (emit [EGot m k (Some v)] s)
  | ONil => call getdef s n name edge = set_status Panicked s
  | OError m k ws => call getdef s n name edge = answer None ws (emit [EGot m k None] s)
  | OBuild m k proxy ws => call getdef s n name edge = emit [EBuild m k] (set_stack (FBuild m k proxy ws :: stack s) s)
  end.
Proof. unfold call. by destruct (resolve getdef (fuel_for n) (nss s) n name edge []). Qed.

Lemma wf_call s n name edge : canonical getdef → wf s → n < length (nss s) → wf (call getdef s n name edge).
Proof.
  intros Hcan Hw Hn. pose proof Hw as [H1 H2 H3]. pose proof (call_cases s n name edge) as Hc.
  pose proof (resolve_spec (fuel_for n) (nss s) n name edge [] H1 Hn Hcan) as Hr.
  destruct (resolve getdef (fuel_for n) (nss s) n name edge []) as [m k v ws| |m k ws|m k proxy ws]; rewrite Hc.
  - eapply wf_skel; [apply (answer_skel (Some v) ws (emit [EGot m k (Some v)] s))|intros f Hf%answer_stack; by left|done].
  - eapply wf_skel; [| |exact Hw]; [done|]. by left.
  - eapply wf_skel; [apply (answer_skel None ws (emit [EGot m k None] s))|intros f Hf%answer_stack; by left|done].
  - destruct Hr as (new & -> & G1 & G2 & G3 & G4 & G5 & G6 & G7 & G8 & G9). rewrite app_nil_r in *. split; [done|done|].
    cbn [emit set_stack stack nss]. intros j c p ws Hin. apply elem_of_cons in Hin as [[= -> -> -> ->]|Hin]; [|by apply (H3 _ _ _ _ Hin)].
    split; [done|]. split; [done|]. split; [done|]. split; [done|]. by apply G8.
Qed.
Lemma wf_step s x s' : canonical getdef → wf s → step getdef s x = Some s' → wf s'.
Proof.
  intros Hcan Hw Hstep. pose proof Hw as [H1 H2 H3]. unfold step in Hstep. destruct (status_of s); try done. destruct x as [n name edge|n name v|n cn acc|front|r|ok|].
  - destruct (user_code s && bool_decide (n < length (nss s))) eqn:Hu; [|done]. injection Hstep as <-. apply andb_true_iff in Hu as [_ Hn%bool_decide_eq_true]. by apply wf_call.
  - destruct (user_code s); [|done]. destruct (nss s !! n) as [x|]; [|done].
    assert (wf (alter_ns (set_seen name (Some v)) n s)) as Hw1 by (eapply wf_skel; [| |exact Hw]; [by apply skel_alter|by left]).
    destruct (n_accepts x (nd_type v)); [|destruct (n_parent x)]; injection Hstep as <-; [|done|]; (eapply wf_skel; [| |exact Hw1]; [done|by left]).
  - destruct (user_code s); [|done]. destruct (nss s !! n) as [x|] eqn:Hx; [|done]. case_bool_decide as Hch; injection Hstep as <-; [done|].
    assert (wf (alter_ns (add_child cn (length (nss s))) n s)) as Hw1 by (eapply wf_skel; [| |exact Hw]; [by apply skel_alter|by left]).
    destruct Hw1 as [G1 G2 G3]. cbn [alter_ns nss stack] in *. split; cbn [nss stack].
    + intros i y p Hy Hp. apply lookup_app_Some in Hy as [Hy|[Hge Hy]]; [by eapply G1|]. destruct (i - _) as [|z] eqn:Hi; simplify_eq/=.
      rewrite alter_length in *. apply lookup_lt_Some in Hx. lia.
    + destruct G2 as (y & Hy & G2). exists y. split; [by apply lookup_app_l_Some|done].
    + intros j c p ws Hin. destruct (G3 _ _ _ _ Hin) as (Ha & Hb & Hc & Hd & He). split; [by apply home_app|]. split; [done|].
      split; [eapply Forall_impl; [exact Hc|]; intros w; apply wok_app|]. split; [|done]. eapply Forall_impl; [exact Hd|]. intros w. apply home_app.
  - destruct (user_code s); [|done]. injection Hstep as <-. eapply wf_skel; [| |exact Hw]; [done|by left].
  - destruct (stack s) as [|[n name proxy ws| |] st] eqn:Hst; try done. injection Hstep as <-.
    apply (wf_skel s); [apply (finish_skel n name proxy ws r (set_stack st s))| |exact Hw]. intros f Hf%finish_stack. simpl in Hf. left. rewrite Hst. by right.
  - destruct (stack s) as [|[|id|] st] eqn:Hst; try done. injection Hstep as <-. apply (wf_skel s); [done| |exact Hw]. simpl. intros f Hf. left. rewrite Hst. by right.
  - destruct (stack s) as [|f st] eqn:Hst; [|done]. destruct (queue s) as [|[id k] q]; [injection Hstep as <-; eapply wf_skel; [| |exact Hw]; [done|by left]|].
    set (s1 := State (nss s) _ q (next s) _ (trace s ++ [ERun id])) in *.
    assert (wf s1) as Hw1. { eapply wf_skel; [| |exact Hw]; [done|]. simpl. intros f Hf. right. apply elem_of_list_singleton in Hf as ->. destruct k; eauto. }
    destruct k as [name|]; injection Hstep as <-; [|done]. apply wf_call; [done|done|]. destruct H2 as (x & Hx & _). by apply lookup_lt_Some in Hx.
Qed.
Lemma init_facts reqs s : nss (foldl (λ s name, defer true (DRequest name) s) s reqs) = nss s ∧ stack (foldl (λ s name, defer true (DRequest name) s) s reqs) = stack s ∧
  status_of (foldl (λ s name, defer true (DRequest name) s) s reqs) = status_of s.
Proof. revert s. induction reqs as [|r reqs IH]; intros s; [done|]. simpl. destruct (IH (defer true (DRequest r) s)) as (-> & -> & ->). done. Qed.
Lemma wf_init reqs : wf (init reqs).
Proof.
  destruct (init_facts reqs (State [root] [] [] 0 Going [])) as (H1 & H2 & _). split; fold (init reqs) in *.
  - rewrite H1. intros [|n] x p; simpl; [intros [= <-]; done|done].
  - rewrite H1. by exists root.
  - rewrite H2. by intros j c p ws ?%elem_of_nil.
Qed.
Lemma wf_run reqs ls s : canonical getdef → run getdef (init reqs) ls = Some s → wf s.
Proof.
  intros Hcan. revert s. induction ls as [|x ls IH] using rev_ind; intros s; [intros [= <-]; apply wf_init|].
  intros (s1 & Hr & Hs)%run_snoc. by eapply wf_step; [|apply IH|].
Qed.

(** ** Nodes are built once *)
Definition isbuilt j c (e : event) : Prop := match e with EBuilt i k _ => i = j ∧ k = c | _ => False end.
Global Instance isbuilt_dec j c e : Decision (isbuilt j c e).
Proof. destruct e; simpl; apply _. Defined.
Definition count {A} (P : A → Prop) `{HPdec : !∀ x, Decision (P x)} (l : list A) : nat := length (filter P l).
Lemma count_app {A} (P : A → Prop) `{HPdec : !∀ x, Decision (P x)} (l1 l2 : list A) : count P (l1 ++ l2) = count P l1 + count P l2.
Proof. unfold count. rewrite filter_app. apply app_length. Qed.
Lemma count_none {A} (P : A → Prop) `{HPdec : !∀ x, Decision (P x)} (l : list A) : (∀ x, x ∈ l → ¬ P x) → count P l = 0.
Proof. unfold count. intros H. induction l as [|x l IH]; [done|]. rewrite filter_cons, decide_False by (apply H; by left). apply IH. intros y Hy. apply H. by right. Qed.
Lemma count_pos {A} (P : A → Prop) `{HPdec : !∀ x, Decision (P x)} (l : list A) x : x ∈ l → P x → 0 < count P l.
Proof.
  intros Hx HP. unfold count. assert (x ∈ filter P l) as Hin by (by apply elem_of_list_filter).
  destruct (filter P l); [by apply elem_of_nil in Hin|simpl; lia].
Qed.
Lemma count_le_one_eq {A} (P : A → Prop) `{HPdec : !∀ x, Decision (P x)} (l : list A) i1 i2 x1 x2 :
  count P l ≤ 1 → l !! i1 = Some x1 → l !! i2 = Some x2 → P x1 → P x2 → i1 = i2.
Proof.
  intros Hc H1 H2 P1 P2. destruct (lt_eq_lt_dec i1 i2) as [[Hlt|]|Hlt]; [|done|]; exfalso.
  - rewrite <- (take_drop_middle _ _ _ H1), count_app in Hc. change (x1 :: drop (S i1) l) with ([x1] ++ drop (S i1) l) in Hc. rewrite count_app in Hc.
    assert (0 < count P [x1]) by (eapply count_pos; [by apply elem_of_list_singleton|done]).
    assert (0 < count P (drop (S i1) l)); [|lia]. eapply count_pos; [|exact P2]. apply elem_of_list_lookup_2 with (i := i2 - S i1).
    rewrite lookup_drop. by replace (S i1 + (i2 - S i1)) with i2 by lia.
  - rewrite <- (take_drop_middle _ _ _ H2), count_app in Hc. change (x2 :: drop (S i2) l) with ([x2] ++ drop (S i2) l) in Hc. rewrite count_app in Hc.
    assert (0 < count P [x2]) by (eapply count_pos; [by apply elem_of_list_singleton|done]).
    assert (0 < count P (drop (S i2) l)); [|lia]. eapply count_pos; [|exact P1]. apply elem_of_list_lookup_2 with (i := i1 - S i2).
    rewrite lookup_drop. by replace (S i2 + (i1 - S i2)) with i1 by lia.
Qed.

Definition bframes (st : list frame) : list (nat * string) := omap (λ f, match f with FBuild n name _ _ => Some (n, name) | _ => None end) st.
Lemma bframes_elem st j c : (j, c) ∈ bframes st ↔ ∃ pr ws, FBuild j c pr ws ∈ st.
Proof.
  unfold bframes. rewrite elem_of_list_omap. split.
  - intros ([n name pr ws|id|id] & Hin & Heq); simplify_eq. eauto.
  - intros (pr & ws & Hin). eexists. split; [exact Hin|done].
Qed.
Record inv l (st : list (nat * string)) t : Prop := Inv {
  j1 : ∀ n name v, seen l n name = Some (Some v) → ∃ j c, home getdef l n name j c ∧ EBuilt j c v ∈ t;
  j2 : ∀ j c v, EBuilt j c v ∈ t → seen l j c = Some (Some v) ∧ home getdef l j c j c;
  j3 : ∀ j c, (j, c) ∈ st → seen l j c = None ∧ home getdef l j c j c;
  j4 : ∀ n name v, EGot n name (Some v) ∈ t → seen l n name = Some (Some v);
  j6 : ∀ j c, count (isbuilt j c) t ≤ 1 }.

Lemma inv_view l l' st t : skel l l' → (∀ n name, seen l' n name = seen l n name) → inv l st t → inv l' st t.
Proof.
  intros Hk Hs [H1 H2 H3 H4 H5]. split.
  - intros n name v Hv. rewrite Hs in Hv. destruct (H1 _ _ _ Hv) as (j & c & Hh & Hin). exists j, c. split; [by eapply home_skel|done].
  - intros j c v Hin. rewrite Hs. destruct (H2 _ _ _ Hin) as [? ?]. split; [done|by eapply home_skel].
  - intros j c Hin. rewrite Hs. destruct (H3 _ _ Hin) as [? ?]. split; [done|by eapply home_skel].
  - intros n name v Hin. rewrite Hs. by apply H4.
  - done.
Qed.
Lemma inv_sub l st st' t : (∀ f, f ∈ st' → f ∈ st) → inv l st t → inv l st' t.
Proof. intros H [H1 H2 H3 H4 H5]. split; try done. intros j c Hin. by apply H3, H. Qed.
Definition quiet l (es : list event) : Prop := ∀ e, e ∈ es →
  match e with EBuilt _ _ _ => False | EGot n name (Some v) => seen l n name = Some (Some v) | _ => True end.
Lemma inv_emit l st t es : quiet l es → inv l st t → inv l st (t ++ es).
Proof.
  intros Hq [H1 H2 H3 H4 H5]. split.
  - intros n name v Hv. destruct (H1 _ _ _ Hv) as (j & c & Hh & Hin). exists j, c. split; [done|]. apply elem_of_app. by left.
  - intros j c v [Hin|Hin%Hq]%elem_of_app; [by apply H2|done].
  - done.
  - intros n name v [Hin|Hin%Hq]%elem_of_app; [by apply H4|done].
  - intros j c. rewrite count_app, (count_none _ es); [specialize (H5 j c); lia|]. intros e He Hi. apply Hq in He. by destruct e.
Qed.
(** Seeing a node where its home has built it. *)
Lemma inv_see l st t n name j c v : inv l st t → home getdef l n name j c → EBuilt j c v ∈ t → n < length l →
  inv (alter (set_seen name (Some v)) n l) st t.
Proof.
  intros [H1 H2 H3 H4 H5] Hh Hb Hn. assert (skel l (alter (set_seen name (Some v)) n l)) as Hk by (by apply skel_alter).
  destruct (H2 _ _ _ Hb) as [Hsj Hhj].
  assert (∀ v', seen l n name = Some (Some v') → v' = v) as Hsame.
  { intros v' (j' & c' & Hh' & Hb')%H1. destruct (home_fun _ _ _ _ _ _ _ Hh Hh') as [<- <-]. destruct (H2 _ _ _ Hb') as [Hs' _]. congruence. }
  split.
  - intros n' name' v'. rewrite seen_set by done. case_decide as Hd.
    + destruct Hd as [<- <-]. intros [= <-]. exists j, c. split; [by eapply home_skel|done].
    + intros Hv. destruct (H1 _ _ _ Hv) as (j' & c' & Hh' & Hb'). exists j', c'. split; [by eapply home_skel|done].
  - intros j' c' v' Hb'. destruct (H2 _ _ _ Hb') as [Hs' Hh']. split; [|by eapply home_skel]. rewrite seen_set by done. case_decide as Hd; [|done].
    destruct Hd as [<- <-]. by rewrite (Hsame _ Hs').
  - intros j' c' Hin. destruct (H3 _ _ Hin) as [Hs' Hh']. split; [|by eapply home_skel]. rewrite seen_set by done. case_decide as Hd; [|done].
    destruct Hd as [<- <-]. destruct (home_fun _ _ _ _ _ _ _ Hh Hh') as [-> ->]. congruence.
  - intros n' name' v' Hg%H4. rewrite seen_set by done. case_decide as Hd; [|done]. destruct Hd as [<- <-]. by rewrite (Hsame _ Hg).
  - done.
Qed.
(** Caching nil under an alias with no node. *)
Lemma inv_nil l st t n name : inv l st t → is_alias name → (∀ v, seen l n name ≠ Some (Some v)) → n < length l →
  inv (alter (set_seen name None) n l) st t.
Proof.
  intros [H1 H2 H3 H4 H5] (d & Hd & Hne) Hs Hn. assert (skel l (alter (set_seen name None) n l)) as Hk by (by apply skel_alter). split.
  - intros n' name' v'. rewrite seen_set by done. case_decide as Hdc; [done|]. intros Hv. destruct (H1 _ _ _ Hv) as (j' & c' & Hh' & Hb').
    exists j', c'. split; [by eapply home_skel|done].
  - intros j' c' v' Hb'. destruct (H2 _ _ _ Hb') as [Hs' Hh']. split; [|by eapply home_skel]. rewrite seen_set by done. case_decide as Hdc; [|done].
    destruct Hdc as [<- <-]. by destruct (Hs v').
  - intros j' c' Hin. destruct (H3 _ _ Hin) as [Hs' Hh']. split; [|by eapply home_skel]. rewrite seen_set by done. case_decide as Hdc; [|done].
    destruct Hdc as [<- <-]. destruct Hne. by eapply home_self_alias.
  - intros n' name' v' Hg%H4. rewrite seen_set by done. case_decide as Hdc; [|done]. destruct Hdc as [<- <-]. by destruct (Hs v').
  - done.
Qed.
(** A build function returns. *)
Lemma inv_built l st t j c v es : inv l ((j, c) :: st) t → (j, c) ∉ st → j < length l → 
  quiet (alter (set_seen c (Some v)) j l) es → inv (alter (set_seen c (Some v)) j l) st (t ++ EBuilt j c v :: es).
Proof.
  intros [H1 H2 H3 H4 H5] Hnin Hj Hq. assert (skel l (alter (set_seen c (Some v)) j l)) as Hk by (by apply skel_alter).
  destruct (H3 j c) as [Hsj Hhj]; [by left|].
  change (EBuilt j c v :: es) with ([EBuilt j c v] ++ es). rewrite (assoc_L (++)). apply inv_emit; [done|]. split.
  - intros n' name' v'. rewrite seen_set by done. case_decide as Hd.
    + destruct Hd as [<- <-]. intros [= <-]. exists j, c. split; [by eapply home_skel|mem].
    + intros Hv. destruct (H1 _ _ _ Hv) as (j' & c' & Hh' & Hb'). exists j', c'. split; [by eapply home_skel|mem].
  - intros j' c' v' [Hb'|Hb']%elem_of_app.
    + destruct (H2 _ _ _ Hb') as [Hs' Hh']. split; [|by eapply home_skel]. rewrite seen_set by done. case_decide as Hd; [|done].
      destruct Hd as [<- <-]. congruence.
    + apply elem_of_list_singleton in Hb' as [= -> -> ->]. split; [|by eapply home_skel]. rewrite seen_set by done. by rewrite decide_True.
  - intros j' c' Hin. destruct (H3 j' c') as [Hs' Hh']; [by right|]. split; [|by eapply home_skel]. rewrite seen_set by done. case_decide as Hd; [|done].
    by destruct Hd as [<- <-].
  - intros n' name' v' [Hg%H4|Hg]%elem_of_app; [|by apply elem_of_list_singleton in Hg]. rewrite seen_set by done. case_decide as Hd; [|done].
    destruct Hd as [<- <-]. congruence.
  - intros j' c'. rewrite count_app. destruct (decide (isbuilt j' c' (EBuilt j c v))) as [Hb|Hb].
    + destruct Hb as [<- <-]. rewrite (count_none _ t). { unfold count. rewrite filter_cons. case_decide; simpl; lia. }
      intros e He Hi. destruct e; try done. destruct Hi as [-> ->]. apply H2 in He as [He _]. congruence.
    + rewrite (count_none _ [_]); [specialize (H5 j' c'); lia|]. by intros e ->%elem_of_list_singleton.
Qed.

Lemma quiet_nss l l' es : (∀ n name, seen l' n name = seen l n name) → quiet l es → quiet l' es.
Proof. intros H Hq e He%Hq. destruct e as [| | |n name [v|]| | | | |]; try done. by rewrite H. Qed.
Lemma edge_quiet l s w v : quiet l (edge_event s w v).
Proof.
  intros e. unfold edge_event. destruct w as [n name|n name ed pr]; [by intros ?%elem_of_nil|]. destruct (is_added _ _ _); [by intros ?%elem_of_nil|].
  destruct (_ && _); [by intros ->%elem_of_list_singleton|by intros ?%elem_of_nil].
Qed.
Lemma inv_resume_some s st w j c v : inv (nss s) st (trace s) → wok (nss s) w → home getdef (nss s) (wn w) (wname w) j c → EBuilt j c v ∈ trace s →
  inv (nss (resume (Some v) s w)) st (trace (resume (Some v) s w)).
Proof.
  intros Hi Hw Hh Hb. pose proof (wok_lt _ _ Hw) as Hlt. rewrite resume_trace. apply inv_emit.
  - intros e [He|He]%elem_of_app; [by eapply (edge_quiet (nss (resume (Some v) s w)))|]. apply elem_of_list_singleton in He as ->.
    rewrite resume_seen_some by done. by rewrite decide_True.
  - eapply inv_view; [| |apply (inv_see _ _ _ (wn w) (wname w) j c v Hi Hh Hb Hlt)].
    + eapply skel_trans; [apply skel_sym; by apply skel_alter|apply resume_skel].
    + intros n name. rewrite resume_seen_some, seen_set by done. done.
Qed.
Lemma inv_resume_none s st w : inv (nss s) st (trace s) → wok (nss s) w → (∀ v, seen (nss s) (wn w) (wname w) ≠ Some (Some v)) →
  inv (nss (resume None s w)) st (trace (resume None s w)).
Proof.
  intros Hi Hw Hs. pose proof (wok_lt _ _ Hw) as Hlt. rewrite resume_trace. apply inv_emit.
  - intros e He. simpl in He. apply elem_of_list_singleton in He as ->. done.
  - destruct w as [n name|n name ed pr]; [|done]. simpl in *. destruct Hw as [_ Hal]. by apply inv_nil.
Qed.
Lemma inv_foldl_some ws s st j c v : inv (nss s) st (trace s) → Forall (wok (nss s)) ws → Forall (λ w, home getdef (nss s) (wn w) (wname w) j c) ws →
  EBuilt j c v ∈ trace s → inv (nss (foldl (resume (Some v)) s ws)) st (trace (foldl (resume (Some v)) s ws)).
Proof.
  revert s. induction ws as [|w ws IH]; intros s Hi Hw Hh Hb; [done|]. simpl. apply Forall_cons_1 in Hw as [Hw Hws]. apply Forall_cons_1 in Hh as [Hh Hhs].
  pose proof (resume_skel (Some v) s w) as Hk. apply IH.
  - by eapply inv_resume_some.
  - eapply Forall_impl; [exact Hws|]. intros w'. by apply wok_skel.
  - eapply Forall_impl; [exact Hhs|]. intros w'. by apply home_skel.
  - rewrite resume_trace. mem.
Qed.
Lemma inv_foldl_none ws s st : inv (nss s) st (trace s) → Forall (wok (nss s)) ws → Forall (λ w, ∀ v, seen (nss s) (wn w) (wname w) ≠ Some (Some v)) ws →
  inv (nss (foldl (resume None) s ws)) st (trace (foldl (resume None) s ws)).
Proof.
  revert s. induction ws as [|w ws IH]; intros s Hi Hw Hh; [done|]. simpl. apply Forall_cons_1 in Hw as [Hw Hws]. apply Forall_cons_1 in Hh as [Hh Hhs].
  pose proof (resume_skel None s w) as Hk. apply IH.
  - by eapply inv_resume_none.
  - eapply Forall_impl; [exact Hws|]. intros w'. by apply wok_skel.
  - eapply Forall_impl; [exact Hhs|]. intros w' Hw' v. cbn beta in *. rewrite resume_seen_none by (by apply wok_lt).
    destruct w as [n name|]; [|apply Hw']. case_decide; [done|apply Hw'].
Qed.
Lemma deliver_trace r s : ∃ es, trace (deliver r s) = trace s ++ es ∧ ∀ e, e ∈ es → ∃ id ok, e = EEnd id ok.
Proof.
  destruct (deliver_cases r s) as [(id & st & _ & ->)|[_ ->]]; [|exists []; split; [by rewrite app_nil_r|by intros e ?%elem_of_nil]].
  eexists. split; [done|]. intros e ->%elem_of_list_singleton. eauto.
Qed.
Lemma deliver_bframes r s : bframes (stack (deliver r s)) = bframes (stack s).
Proof. destruct (deliver_cases r s) as [(id & st & Hst & ->)|[_ ->]]; [|done]. simpl. by rewrite Hst. Qed.
Lemma inv_deliver r s st : inv (nss s) st (trace s) → inv (nss (deliver r s)) st (trace (deliver r s)).
Proof.
  intros Hi. destruct (deliver_trace r s) as (es & -> & Hes). rewrite deliver_nss. apply inv_emit; [|done].
  intros e He. destruct (Hes e He) as (id & ok & ->). done.
Qed.
Lemma answer_bframes r ws s : bframes (stack (answer r ws s)) = bframes (stack s).
Proof. unfold answer. rewrite deliver_bframes. destruct (foldl_rest r ws s) as (-> & _). done. Qed.

Definition sinv s : Prop := inv (nss s) (bframes (stack s)) (trace s).
Lemma sinv_call s n name edge : canonical getdef → wf s → sinv s → n < length (nss s) → sinv (call getdef s n name edge).
Proof.
  intros Hcan Hw Hi Hn. pose proof (call_cases s n name edge) as Hc.
  pose proof (resolve_spec (fuel_for n) (nss s) n name edge [] (f_older _ Hw) Hn Hcan) as Hr. unfold sinv in *.
  destruct (resolve getdef (fuel_for n) (nss s) n name edge []) as [m k v ws| |m k ws|m k proxy ws]; rewrite Hc.
  - destruct Hr as (new & -> & G1 & G2 & G3 & G4 & G5 & G6 & G7 & G8). rewrite app_nil_r in *. rewrite answer_bframes. unfold answer. apply inv_deliver.
    destruct (j1 _ _ _ Hi _ _ _ G1) as (j & c & Hh & Hb).
    apply (inv_foldl_some _ _ _ j c); cbn [emit nss trace]; [|done|by apply G4|mem]. apply inv_emit; [|done].
    intros e ->%elem_of_list_singleton. done.
  - done.
  - destruct Hr as (new & -> & G2 & G3 & G4 & G5). rewrite app_nil_r in *. rewrite answer_bframes. unfold answer. apply inv_deliver.
    apply inv_foldl_none; cbn [emit nss trace]; [|done|eapply Forall_impl; [exact G4|]; cbn beta; intros; congruence]. apply inv_emit; [|done].
    intros e ->%elem_of_list_singleton. done.
  - destruct Hr as (new & -> & G1 & G2 & G3 & G4 & G5 & G6 & G7 & G8 & G9). cbn [emit set_stack nss stack trace]. apply inv_emit.
    { intros e ->%elem_of_list_singleton. done. }
    destruct Hi as [H1 H2 H3 H4 H5]. split; try done. intros j c Hin. apply elem_of_cons in Hin as [[= -> ->]|Hin]; [done|by apply H3].
Qed.
Lemma sinv_finish s j c pr ws r : sinv s → wf s → NoDup (bframes (stack s)) →
  ∀ st, stack s = FBuild j c pr ws :: st → sinv (finish_build j c pr ws r (set_stack st s)).
Proof.
  intros Hi Hw Hnd st Hst. unfold sinv in *. rewrite Hst in Hi, Hnd. change (bframes (FBuild j c pr ws :: st)) with ((j, c) :: bframes st) in Hi, Hnd.
  apply list.NoDup_cons in Hnd as [Hnin _].
  destruct (f_build _ Hw j c pr ws) as (F1 & F2 & F3 & F4 & F5); [rewrite Hst; by left|].
  assert (j < length (nss s)) as Hj by (destruct F1 as (d & _ & _ & Hnear); by apply nearest_lt in Hnear as [_ ?]).
  unfold finish_build. destruct r as [v|].
  - set (s1 := if is_added (emit [EBuilt j c v] (set_stack st s)) j (nd_name v) then emit [EBuilt j c v] (set_stack st s)
               else alter_ns (mark_added (nd_name v)) j (if pr then emit [EBuilt j c v] (set_stack st s) else emit [ENode j c v] (emit [EBuilt j c v] (set_stack st s)))).
    assert (∃ es, trace s1 = trace s ++ EBuilt j c v :: es ∧ ∀ e, e ∈ es → e = ENode j c v) as (es & Htr & Hes).
    { unfold s1. destruct (is_added _ _ _); [exists []; split; [done|by intros e ?%elem_of_nil]|]. destruct pr.
      - exists []; split; [done|by intros e ?%elem_of_nil].
      - exists [ENode j c v]. cbn [alter_ns emit set_stack trace]. rewrite <- (assoc_L (++)). split; [done|by intros e ->%elem_of_list_singleton]. }
    assert (skel (nss s) (nss s1) ∧ (∀ n name, seen (nss s1) n name = seen (nss s) n name) ∧ stack s1 = st) as (Hk & Hse & Hst1).
    { unfold s1. destruct (is_added _ _ _); [done|]. destruct pr; cbn [alter_ns emit set_stack nss stack]; (split; [by apply skel_alter|]); (split; [|done]); intros; by apply seen_alter_same. }
    rewrite answer_bframes. cbn [emit alter_ns stack]. rewrite Hst1. unfold answer. apply inv_deliver.
    assert (skel (nss s) (alter (set_seen c (Some v)) j (nss s1))) as Hk2 by (eapply skel_trans; [exact Hk|by apply skel_alter]).
    assert (j < length (nss s1)) as Hj1 by (by rewrite <- (skel_length _ _ Hk)).
    apply (inv_foldl_some _ _ _ j c); cbn [emit alter_ns nss trace].
    + rewrite Htr. rewrite <- (assoc_L (++)). apply (inv_view (alter (set_seen c (Some v)) j (nss s))).
      * eapply skel_trans; [apply skel_sym; by apply skel_alter|done].
      * intros n name. rewrite !seen_set by done. by rewrite Hse.
      * apply inv_built; [done|done|done|]. intros e [He|He]%elem_of_app; [by rewrite (Hes _ He)|]. apply elem_of_list_singleton in He as ->.
        rewrite seen_set by done. by rewrite decide_True.
    + eapply Forall_impl; [exact F3|]. intros w. by apply wok_skel.
    + eapply Forall_impl; [exact F4|]. intros w. by apply home_skel.
    + rewrite Htr. mem.
  - rewrite answer_bframes. cbn [emit set_stack stack]. unfold answer. apply inv_deliver. apply inv_foldl_none; cbn [emit set_stack nss trace]; [|done|].
    + apply inv_emit; [intros e He; apply elem_of_cons in He as [->|He]; [done|]; apply elem_of_list_singleton in He as ->; done|]. eapply inv_sub; [|exact Hi]. by right.
    + eapply Forall_impl; [exact F4|]. intros w Hh v Hv. destruct (j1 _ _ _ Hi _ _ _ Hv) as (j' & c' & Hh' & Hb').
      destruct (home_fun _ _ _ _ _ _ _ Hh Hh') as [<- <-]. destruct (j3 _ _ _ Hi j c) as [Hn _]; [by left|]. apply (j2 _ _ _ Hi) in Hb' as [? _]. congruence.
Qed.
Lemma sinv_step s x s' : canonical getdef → wf s → sinv s → NoDup (building s) → (∀ n name v, x ≠ LPut n name v) → step getdef s x = Some s' → sinv s'.
Proof.
  intros Hcan Hw Hi Hnd Hnp Hstep. unfold step in Hstep. destruct (status_of s); try done. destruct x as [n name edge|n name v|n cn acc|front|r|ok|].
  - destruct (user_code s && bool_decide (n < length (nss s))) eqn:Hu; [|done]. injection Hstep as <-. apply andb_true_iff in Hu as [_ Hn%bool_decide_eq_true]. by apply sinv_call.
  - by destruct (Hnp n name v).
  - destruct (user_code s); [|done]. destruct (nss s !! n) as [x|] eqn:Hx; [|done]. case_bool_decide as Hch; injection Hstep as <-; [done|].
    unfold sinv in *. cbn [nss stack trace].
    assert (inv (alter (add_child cn (length (nss s))) n (nss s)) (bframes (stack s)) (trace s)) as [H1 H2 H3 H4 H5].
    { eapply inv_view; [| |exact Hi]; [by apply skel_alter|]. intros. by apply seen_alter_same. }
    set (l := alter (add_child cn (length (nss s))) n (nss s)) in *.
    assert (∀ n' name, seen (l ++ [Nspace (Some n) acc ∅ ∅ ∅]) n' name = seen l n' name) as Hs.
    { intros n' name. unfold seen. destruct (decide (n' < length l)).
      - by rewrite lookup_app_l.
      - rewrite lookup_app_r by lia. rewrite (lookup_ge_None_2 l) by lia. destruct (n' - length l) as [|z]; simpl; [by rewrite lookup_empty|done]. }
    split.
    + intros n' name v Hv. rewrite Hs in Hv. destruct (H1 _ _ _ Hv) as (j & c & Hh & Hb). exists j, c. split; [by apply home_app|done].
    + intros j c v Hb. rewrite Hs. destruct (H2 _ _ _ Hb). split; [done|by apply home_app].
    + intros j c Hin. rewrite Hs. destruct (H3 _ _ Hin). split; [done|by apply home_app].
    + intros n' name v Hg. rewrite Hs. by apply H4.
    + done.
  - destruct (user_code s); [|done]. injection Hstep as <-. unfold sinv in *. cbn [defer nss stack trace]. apply inv_emit; [|done].
    intros e ->%elem_of_list_singleton. done.
  - destruct (stack s) as [|[n name proxy ws| |] st] eqn:Hst; try done. injection Hstep as <-. by apply sinv_finish.
  - destruct (stack s) as [|[|id|] st] eqn:Hst; try done. injection Hstep as <-. unfold sinv in *. cbn [emit set_status set_stack nss stack trace].
    rewrite Hst in Hi. apply inv_emit; [|done]. intros e ->%elem_of_list_singleton. done.
  - destruct (stack s) as [|f st] eqn:Hst; [|done]. destruct (queue s) as [|[id k] q]; [injection Hstep as <-; unfold sinv in *; simpl; rewrite Hst in *; done|].
    set (s1 := State (nss s) _ q (next s) _ (trace s ++ [ERun id])) in *.
    assert (wf s1) as Hw1. { eapply wf_skel; [| |exact Hw]; [done|]. simpl. intros f Hf. right. apply elem_of_list_singleton in Hf as ->. destruct k; eauto. }
    assert (sinv s1) as Hi1.
    { unfold sinv in *. cbn [nss stack trace s1]. rewrite Hst in Hi. replace (bframes _) with (bframes []) by (by destruct k). apply inv_emit; [|done].
      intros e ->%elem_of_list_singleton. done. }
    destruct k as [name|]; injection Hstep as <-; [|done]. apply sinv_call; try done. destruct (f_root _ Hw) as (x & Hx & _). by apply lookup_lt_Some in Hx.
Qed.
Lemma sinv_init reqs : sinv (init reqs).
Proof.
  unfold sinv. destruct (init_facts reqs (State [root] [] [] 0 Going [])) as (H1 & H2 & _). fold (init reqs) in *. rewrite H1, H2.
  assert (∀ e, e ∈ trace (init reqs) → ∃ id fr, e = EDefer id fr) as Htr.
  { unfold init. assert (∀ s, (∀ e, e ∈ trace s → ∃ id fr, e = EDefer id fr) → ∀ e, e ∈ trace (foldl (λ s name, defer true (DRequest name) s) s reqs) → ∃ id fr, e = EDefer id fr) as Hg.
    { clear H1 H2. induction reqs as [|r reqs IH]; intros s Hs; [done|]. simpl. apply IH.
      simpl. intros e [He|He]%elem_of_app; [by apply Hs|]. apply elem_of_list_singleton in He as ->. eauto. }
    apply Hg. by intros e ?%elem_of_nil. }
  split.
  - intros n name v. unfold seen. destruct n; simpl; [by rewrite lookup_empty|done].
  - intros j c v Hin. destruct (Htr _ Hin) as (? & ? & ?). done.
  - by intros j c ?%elem_of_nil.
  - intros n name v Hin. destruct (Htr _ Hin) as (? & ? & ?). done.
  - intros j c. rewrite count_none; [lia|]. intros e He Hb. destruct (Htr _ He) as (? & ? & ->). done.
Qed.
Lemma sinv_run reqs ls s : canonical getdef → execution getdef reqs ls s → acyclic getdef reqs ls → no_put ls → sinv s.
Proof.
  intros Hcan. revert s. induction ls as [|x ls IH] using rev_ind; intros s.
  - intros [= <-] _ _. apply sinv_init.
  - intros (s1 & Hr & Hs)%run_snoc Hac Hnp. assert (sinv s1).
    { apply IH; [done| |intros n name v Hin; apply (Hnp n name v); mem]. intros l1 l2 s0 -> Hr0. apply (Hac l1 (l2 ++ [x])); [by rewrite (assoc_L (++))|done]. }
    eapply sinv_step; [done|by eapply wf_run|done|by eapply (Hac ls [x])| |exact Hs]. intros n name v ->. apply (Hnp n name v). mem.
Qed.

Lemma built_once reqs ls s i1 i2 j c v1 v2 : canonical getdef → execution getdef reqs ls s → acyclic getdef reqs ls → no_put ls →
  trace s !! i1 = Some (EBuilt j c v1) → trace s !! i2 = Some (EBuilt j c v2) → i1 = i2.
Proof. intros Hcan Hr Hac Hnp H1 H2. eapply (count_le_one_eq (isbuilt j c)); [|exact H1|exact H2|done|done]. by apply (j6 _ _ _ (sinv_run _ _ _ Hcan Hr Hac Hnp)). Qed.
Lemma got_from_home reqs ls s n name v : canonical getdef → execution getdef reqs ls s → acyclic getdef reqs ls → no_put ls →
  EGot n name (Some v) ∈ trace s → ∃ j c, home getdef (nss s) n name j c ∧ EBuilt j c v ∈ trace s.
Proof. intros Hcan Hr Hac Hnp Hin. pose proof (sinv_run _ _ _ Hcan Hr Hac Hnp) as Hi. by apply (j1 _ _ _ Hi), (j4 _ _ _ Hi). Qed.
Lemma got_same reqs ls s n name v n' name' v' j c : canonical getdef → execution getdef reqs ls s → acyclic getdef reqs ls → no_put ls →
  EGot n name (Some v) ∈ trace s → EGot n' name' (Some v') ∈ trace s →
  home getdef (nss s) n name j c → home getdef (nss s) n' name' j c → v = v'.
Proof.
  intros Hcan Hr Hac Hnp H1 H2 Hh1 Hh2. pose proof (sinv_run _ _ _ Hcan Hr Hac Hnp) as Hi.
  destruct (got_from_home _ _ _ _ _ _ Hcan Hr Hac Hnp H1) as (j1' & c1 & Hh1' & Hb1). destruct (got_from_home _ _ _ _ _ _ Hcan Hr Hac Hnp H2) as (j2' & c2 & Hh2' & Hb2).
  destruct (home_fun _ _ _ _ _ _ _ Hh1 Hh1') as [<- <-]. destruct (home_fun _ _ _ _ _ _ _ Hh2 Hh2') as [<- <-].
  apply (j2 _ _ _ Hi) in Hb1 as [Hb1 _]. apply (j2 _ _ _ Hi) in Hb2 as [Hb2 _]. congruence.
Qed.
Lemma got_again reqs ls s n name v edge s' : canonical getdef → execution getdef reqs ls s → acyclic getdef reqs ls → no_put ls →
  EGot n name (Some v) ∈ trace s → step getdef s (LGet n name edge) = Some s' → s' = emit [EGot n name (Some v)] s.
Proof.
  intros Hcan Hr Hac Hnp Hg Hs. pose proof (sinv_run _ _ _ Hcan Hr Hac Hnp) as Hi. apply (j4 _ _ _ Hi) in Hg.
  unfold step in Hs. destruct (status_of s) eqn:Hst; try done. destruct (user_code s && bool_decide (n < length (nss s))) eqn:Hu; [|done]. injection Hs as <-.
  apply andb_true_iff in Hu as [Hu _]. unfold call. unfold fuel_for. simpl resolve. unfold seen in Hg. destruct (nss s !! n) as [x|]; [|done]. rewrite Hg.
  unfold answer. simpl. unfold deliver. cbn [emit stack]. unfold user_code in Hu. by destruct (stack s) as [|[]].
Qed.
(** Where a Get leads. *)
Lemma answer_trace r ws s : ∃ es, trace (answer r ws s) = trace s ++ es ∧ (∀ w, w ∈ ws → EGot (wn w) (wname w) r ∈ es).
Proof.
  unfold answer. destruct (deliver_trace r (foldl (resume r) s ws)) as (es & -> & _).
  assert (∃ es, trace (foldl (resume r) s ws) = trace s ++ es ∧ ∀ w, w ∈ ws → EGot (wn w) (wname w) r ∈ es) as (es' & -> & Hes).
  { revert s. induction ws as [|w ws IH]; intros s; [exists []; split; [by rewrite app_nil_r|by intros w ?%elem_of_nil]|]. simpl.
    destruct (IH (resume r s w)) as (es' & -> & Hes). rewrite resume_trace, <- (assoc_L (++)). eexists. split; [done|].
    intros w' [->|Hw']%elem_of_cons; [unfold resume_events; mem|]. apply elem_of_app. right. by apply Hes. }
  rewrite <- (assoc_L (++)). eexists. split; [done|]. intros w Hw. apply elem_of_app. left. by apply Hes.
Qed.
Lemma ends_got m k ws n name (r : option node) (es : list event) : ends m k ws = (n, name) → EGot m k r ∈ es → (∀ w, w ∈ ws → EGot (wn w) (wname w) r ∈ es) → EGot n name r ∈ es.
Proof.
  intros He Hm Hw. unfold ends in He. destruct (last ws) as [w|] eqn:Hl; simplify_eq; [|done]. apply Hw. apply last_Some in Hl as [l' ->]. mem.
Qed.
Lemma answer_quiet r ws s : ∃ es, trace (answer r ws s) = trace s ++ es ∧ ∀ e, e ∈ es → match e with EGot _ _ r' => r' = r | EEdge _ _ _ | EEnd _ _ => True | _ => False end.
Proof.
  unfold answer. destruct (deliver_trace r (foldl (resume r) s ws)) as (es & -> & Hd).
  assert (∃ es, trace (foldl (resume r) s ws) = trace s ++ es ∧ ∀ e, e ∈ es → match e with EGot _ _ r' => r' = r | EEdge _ _ _ | EEnd _ _ => True | _ => False end) as (es' & -> & Hes).
  { revert s es Hd. induction ws as [|w ws IH]; intros s es Hd; [exists []; split; [by rewrite app_nil_r|by intros e ?%elem_of_nil]|]. simpl.
    destruct (IH (resume r s w) es Hd) as (es' & -> & Hes). rewrite resume_trace, <- (assoc_L (++)). eexists. split; [done|].
    intros e He. apply elem_of_app in He as [He|He]; [|by apply Hes]. unfold resume_events in He. apply elem_of_app in He as [He|He].
    - destruct r as [v|]; [|by apply elem_of_nil in He]. unfold edge_event in He. destruct w; [by apply elem_of_nil in He|].
      destruct (is_added _ _ _); [by apply elem_of_nil in He|]. destruct (_ && _); [by apply elem_of_list_singleton in He as ->|by apply elem_of_nil in He].
    - by apply elem_of_list_singleton in He as ->. }
  rewrite <- (assoc_L (++)). eexists. split; [done|]. intros e He. apply elem_of_app in He as [He|He]; [by apply Hes|]. by destruct (Hd _ He) as (? & ? & ->).
Qed.
Lemma call_leads s n name edge j c : canonical getdef → wf s → home getdef (nss s) n name j c → n < length (nss s) →
  let s' := call getdef s n name edge in
  (trace s' = trace s ++ [EBuild j c] ∧ building s' = (j, c) :: building s) ∨
  (∃ v es, trace s' = trace s ++ es ∧ EGot n name (Some v) ∈ es ∧ (∀ j c, EBuild j c ∉ es) ∧ building s' = building s) ∨
  status_of s' = Panicked.
Proof.
  intros Hcan Hw Hh Hn. simpl. pose proof (call_cases s n name edge) as Hc.
  pose proof (resolve_spec (fuel_for n) (nss s) n name edge [] (f_older _ Hw) Hn Hcan) as Hr.
  pose proof (resolve_home (fuel_for n) (nss s) n name edge [] j c Hcan (f_older _ Hw) Hh) as Hg.
  assert (match getdef name with Some d => if bool_decide (w_name d = name) then n < fuel_for n else S n < fuel_for n | None => True end) as Hf.
  { unfold fuel_for. destruct (getdef name); [|done]. case_bool_decide; lia. }
  specialize (Hg Hf). destruct (resolve getdef (fuel_for n) (nss s) n name edge []) as [m k v ws| |m k ws|m k proxy ws]; rewrite Hc.
  - right. left. destruct Hr as (new & -> & G1 & G2 & G3 & G4 & G5 & G6 & G7 & G8). rewrite app_nil_r in *.
    set (s1 := emit [EGot m k (Some v)] s). destruct (answer_trace (Some v) new s1) as (es & Hes & Hgot). destruct (answer_quiet (Some v) new s1) as (es' & Hes' & Hq).
    assert (es' = es) as -> by (rewrite Hes in Hes'; by apply app_inv_head in Hes'). unfold s1 in Hes. cbn [emit trace] in Hes. rewrite <- (assoc_L (++)) in Hes.
    exists v. eexists. split; [exact Hes|]. split; [|split].
    + eapply ends_got; [exact G5|mem|]. intros w Hw'. apply elem_of_app. right. by apply Hgot.
    + intros j' c' [He|He]%elem_of_app; [by apply elem_of_list_singleton in He|by apply Hq in He].
    + unfold building. change (omap _ ?st) with (bframes st). by rewrite answer_bframes.
  - right. by right.
  - done.
  - destruct Hg as [-> ->]. by left.
Qed.
End proofs.
