(** * Proofs about vector clocks *)
From Verif Require Export GoVec_Spec.
Set Default Proof Using "Type".

(** ** Clocks *)
Lemma at_tick p q c : at_ (tick p c) q = if decide (p = q) then S (at_ c q) else at_ c q.
Proof.
  unfold at_, tick. destruct (decide (p = q)) as [->|H]; [by rewrite lookup_insert|by rewrite lookup_insert_ne].
Qed.
Lemma at_merge c d p : at_ (merge c d) p = max (at_ c p) (at_ d p).
Proof. unfold at_, merge. rewrite lookup_union_with. destruct (c !! p), (d !! p); simpl; lia. Qed.
Lemma at_empty p : at_ ∅ p = 0.
Proof. done. Qed.
Lemma at_record p q c d : at_ (merge (tick p c) d) q = max (if decide (p = q) then S (at_ c q) else at_ c q) (at_ d q).
Proof. by rewrite at_merge, at_tick. Qed.

(** ** One more entry *)
Definition msg (a : entry) (w : what) : Prop :=
  (∃ k, e_what a = WSend k ∧ w = WServe k) ∨ (∃ k, e_what a = WReply k ∧ w = WReturn k).
Lemma edge_alt l i j :
  edge l i j ↔ ∃ a b, l !! i = Some a ∧ l !! j = Some b ∧ i < j ∧ (e_proc a = e_proc b ∨ msg a (e_what b)).
Proof. unfold edge, msg. naive_solver. Qed.
Lemma edge_lt l i j : edge l i j → i < j.
Proof. intros (a & b & _ & _ & H & _). done. Qed.
Lemma rtc_le l i j : rtc (edge l) i j → i ≤ j.
Proof. induction 1 as [|i j k H _ IH]; [done|]. apply edge_lt in H. lia. Qed.

Section extend.
Context (l : list entry) (e : entry).
Notation n := (length l).
Lemma lookup_new i a : (l ++ [e]) !! i = Some a ↔ l !! i = Some a ∨ (i = n ∧ a = e).
Proof.
  rewrite lookup_app_Some, list_lookup_singleton_Some. split.
  - intros [H|[H1 [H2 <-]]]; [by left|right]. split; [lia|done].
  - intros [H|[-> ->]]; [by left|right]. split; [lia|]. split; [lia|done].
Qed.
Lemma edge_new i j : edge (l ++ [e]) i j ↔ edge l i j ∨ (j = n ∧ ∃ a, l !! i = Some a ∧ (e_proc a = e_proc e ∨ msg a (e_what e))).
Proof.
  rewrite !edge_alt. split.
  - intros (a & b & [Ha|[-> ->]]%lookup_new & [Hb|[-> ->]]%lookup_new & Hlt & H).
    + left. by exists a, b.
    + right. split; [done|]. by exists a.
    + apply lookup_lt_Some in Hb. lia.
    + lia.
  - intros [(a & b & Ha & Hb & H)|[-> (a & Ha & H)]].
    + exists a, b. rewrite !lookup_new. naive_solver.
    + exists a, e. rewrite !lookup_new. split; [by left|]. split; [by right|]. split; [by eapply lookup_lt_Some|done].
Qed.
Lemma rtc_old i j : j < n → rtc (edge (l ++ [e])) i j ↔ rtc (edge l) i j.
Proof.
  intros Hj. split.
  - intros H. revert Hj. induction H as [|i j k H1 H2 IH]; intros Hk; [done|].
    apply edge_new in H1 as [H1|[-> _]]; [eapply rtc_l; [exact H1|by apply IH]|]. apply rtc_le in H2. lia.
  - apply rtc_subrel. intros x y Hxy. apply edge_new. by left.
Qed.
Lemma rtc_new j : rtc (edge (l ++ [e])) j n ↔
  j = n ∨ ∃ i a, l !! i = Some a ∧ (e_proc a = e_proc e ∨ msg a (e_what e)) ∧ rtc (edge l) j i.
Proof.
  split.
  - intros [->|(i & H1 & H2)]%rtc_inv_r; [by left|right]. apply edge_new in H2 as [H2|[_ (a & Ha & H)]].
    + exfalso. apply edge_alt in H2 as (a & b & _ & Hb & _). apply lookup_lt_Some in Hb. lia.
    + exists i, a. split; [done|]. split; [done|]. apply rtc_old; [by eapply lookup_lt_Some|done].
  - intros [->|(i & a & Ha & H & Hr)]; [done|]. eapply rtc_r.
    + apply rtc_old; [by eapply lookup_lt_Some|exact Hr].
    + apply edge_new. right. split; [done|]. by exists a.
Qed.
End extend.

(** ** The invariant of the log *)
Definition own (e : entry) : nat := at_ (e_clock e) (e_proc e).
Record log_inv (l : list entry) : Prop := {
  li_src : ∀ i e p, l !! i = Some e → at_ (e_clock e) p ≠ 0 →
    ∃ j f, l !! j = Some f ∧ e_proc f = p ∧ own f = at_ (e_clock e) p;
  li_own : ∀ i j e f, l !! i = Some e → l !! j = Some f → e_proc e = e_proc f → i < j → own e < own f;
  li_pos : ∀ i e, l !! i = Some e → 0 < own e;
  li_count : ∀ i e, l !! i = Some e → own e = length (filter (λ x, e_proc x = e_proc e) (take (S i) l));
  li_hb : ∀ i j e f, l !! i = Some e → l !! j = Some f → rtc (edge l) j i ↔ own f ≤ at_ (e_clock e) (e_proc f) }.

(** [c] is the clock of the last entry of [p], if any. *)
Definition last_clock (l : list entry) (p : string) (c : clock) : Prop :=
  (c = ∅ ∧ ∀ i e, l !! i = Some e → e_proc e ≠ p) ∨
  (∃ i e, l !! i = Some e ∧ e_proc e = p ∧ e_clock e = c ∧ ∀ j f, l !! j = Some f → e_proc f = p → j ≤ i).

Lemma last_bound l p c i e : log_inv l → last_clock l p c → l !! i = Some e → at_ (e_clock e) p ≤ at_ c p.
Proof.
  intros HI HL He. destruct (decide (at_ (e_clock e) p = 0)) as [->|Hne]; [lia|].
  destruct (li_src l HI _ _ _ He Hne) as (j & f & Hf & Hp & <-). destruct HL as [[_ HL]|(k & g & Hg & Hgp & <- & HL)].
  - by destruct (HL _ _ Hf).
  - pose proof (HL _ _ Hf Hp). replace (at_ (e_clock g) p) with (own g) by (unfold own; by rewrite Hgp).
    destruct (decide (j = k)) as [->|Hjk]; [replace f with g by congruence; lia|].
    pose proof (li_own l HI j k f g Hf Hg ltac:(congruence) ltac:(lia)). lia.
Qed.

Lemma last_count l p c : log_inv l → last_clock l p c → at_ c p = length (filter (λ x, e_proc x = p) l).
Proof.
  intros HI [[-> HL]|(k & g & Hg & Hgp & <- & HL)].
  - assert (filter (λ x, e_proc x = p) l = []) as ->; [|done].
    destruct (filter (λ x, e_proc x = p) l) as [|a r] eqn:E; [done|].
    assert (a ∈ filter (λ x, e_proc x = p) l) as [Hp [i Hi]%elem_of_list_lookup]%elem_of_list_filter by (rewrite E; by left).
    by destruct (HL _ _ Hi).
  - replace (at_ (e_clock g) p) with (own g) by (unfold own; by rewrite Hgp). rewrite (li_count l HI _ _ Hg), Hgp.
    rewrite <- (take_drop (S k) l) at 2. rewrite filter_app, app_length.
    destruct (filter (λ x, e_proc x = p) (drop (S k) l)) as [|a r] eqn:E; [simpl; lia|].
    assert (a ∈ filter (λ x, e_proc x = p) (drop (S k) l)) as [Hp [i Hi]%elem_of_list_lookup]%elem_of_list_filter by (rewrite E; by left).
    rewrite lookup_drop in Hi. pose proof (HL _ _ Hi Hp). lia.
Qed.
Lemma extend_inv l p w c d :
  log_inv l → last_clock l p c →
  (∀ i a, l !! i = Some a → msg a w → e_clock a = d) →
  (d = ∅ ∨ ∃ i a, l !! i = Some a ∧ msg a w) →
  log_inv (l ++ [Entry p w (merge (tick p c) d)]) ∧ last_clock (l ++ [Entry p w (merge (tick p c) d)]) p (merge (tick p c) d).
Proof.
  intros HI HL Hm1 Hm2. set (e := Entry p w (merge (tick p c) d)).
  assert (∀ q, at_ d q ≠ 0 → ∃ i a, l !! i = Some a ∧ e_clock a = d) as Hd.
  { intros q Hq. destruct Hm2 as [->|(i & a & Ha & Hm)]; [done|]. exists i, a. split; [done|by eapply Hm1]. }
  assert (at_ d p ≤ at_ c p) as Hdp.
  { destruct (decide (at_ d p = 0)) as [->|H]; [lia|]. destruct (Hd _ H) as (i & a & Ha & <-). by eapply last_bound. }
  assert (own e = S (at_ c p)) as Hown.
  { unfold own, e. simpl. rewrite at_record, decide_True by done. lia. }
  assert (∀ q, q ≠ p → at_ (e_clock e) q = max (at_ c q) (at_ d q)) as Hoth.
  { intros q Hq. unfold e. simpl. by rewrite at_record, decide_False. }
  assert (∀ i f, l !! i = Some f → e_proc f = p → own f ≤ at_ c p) as Hmine.
  { intros i f Hf Hp. unfold own. rewrite Hp. by eapply last_bound. }
  assert (∀ j, (∃ i a, l !! i = Some a ∧ e_proc a = p ∧ rtc (edge l) j i) ↔
               (∃ i a, l !! i = Some a ∧ e_proc a = p ∧ e_clock a = c ∧ rtc (edge l) j i)) as Hlast.
  { intros j. split; [|naive_solver]. intros (i & a & Ha & Hp & Hr).
    destruct HL as [[_ HL]|(k & g & Hg & Hgp & Hgc & HL)]; [by destruct (HL _ _ Ha)|].
    exists k, g. split_and!; [done..|]. destruct (decide (i = k)) as [<-|Hik]; [done|].
    eapply rtc_r; [exact Hr|]. apply edge_alt. exists a, g. split_and!; [done|done| |left; congruence].
    pose proof (HL _ _ Ha Hp). lia. }
  split.
  - split.
    + intros i f q [Hf|[-> ->]]%lookup_new Hne.
      * destruct (li_src l HI _ _ _ Hf Hne) as (j & g & Hg & H1 & H2). exists j, g. split; [|done].
        apply lookup_app_Some. by left.
      * destruct (decide (q = p)) as [->|Hqp].
        { exists (length l), e. split; [apply lookup_new; by right|]. done. }
        rewrite (Hoth q Hqp) in Hne |- *.
        assert (∃ i a, l !! i = Some a ∧ at_ (e_clock a) q = max (at_ c q) (at_ d q)) as (i & a & Ha & Ea).
        { destruct (decide (at_ d q ≤ at_ c q)).
          - replace (max (at_ c q) (at_ d q)) with (at_ c q) in Hne |- * by lia.
            destruct HL as [[-> _]|(k & g & Hg & _ & <- & _)]; [done|eauto].
          - replace (max (at_ c q) (at_ d q)) with (at_ d q) in Hne |- * by lia.
            destruct (Hd _ Hne) as (i & a & Ha & <-). eauto. }
        rewrite <- Ea in Hne |- *. destruct (li_src l HI _ _ _ Ha Hne) as (j & g & Hg & H1 & H2).
        exists j, g. split; [|done]. apply lookup_app_Some. by left.
    + intros i j f g [Hf|[-> ->]]%lookup_new [Hg|[-> ->]]%lookup_new Hp Hlt.
      * by eapply (li_own l HI).
      * rewrite Hown. pose proof (Hmine _ _ Hf Hp). lia.
      * apply lookup_lt_Some in Hg. lia.
      * lia.
    + intros i f [Hf|[-> ->]]%lookup_new; [by eapply (li_pos l HI)|lia].
    + intros i f [Hf|[-> ->]]%lookup_new.
      * rewrite take_app_le by (apply lookup_lt_Some in Hf; lia). by apply (li_count l HI).
      * rewrite take_ge by (rewrite app_length; simpl; lia). rewrite filter_app, app_length, Hown.
        rewrite filter_cons_True by done. simpl. rewrite (last_count l p c HI HL). lia.
    + intros i j f g [Hf|[-> ->]]%lookup_new [Hg|[-> ->]]%lookup_new.
      * rewrite rtc_old by (by eapply lookup_lt_Some). by apply (li_hb l HI).
      * split.
        -- intros Hr%rtc_le. apply lookup_lt_Some in Hf. lia.
        -- rewrite Hown. unfold e. simpl. pose proof (last_bound l p c i f HI HL Hf). lia.
      * rewrite rtc_new. simpl. split.
        -- intros [->|(i & a & Ha & Hpm & Hr)]; [apply lookup_lt_Some in Hg; lia|].
           pose proof (proj1 (li_hb l HI _ _ _ _ Ha Hg) Hr) as Hle.
           destruct Hpm as [Hp|Hm].
           ++ destruct (proj1 (Hlast j)) as (i' & a' & Ha' & Hp' & Hc' & Hr'); [by exists i, a|].
              pose proof (proj1 (li_hb l HI _ _ _ _ Ha' Hg) Hr') as Hle'. rewrite Hc' in Hle'.
              rewrite at_record. destruct (decide (p = e_proc g)); lia.
           ++ rewrite (Hm1 _ _ Ha Hm) in Hle. rewrite at_record. lia.
        -- intros Hle. right. rewrite at_record in Hle. destruct (decide (p = e_proc g)) as [Hp|Hp].
           ++ exists j, g. split_and!; [done|by left|done].
           ++ pose proof (li_pos l HI _ _ Hg). destruct (decide (own g ≤ at_ c (e_proc g))) as [Hc|Hc].
              ** destruct HL as [[-> _]|(k & h & Hh & Hhp & Hhc & HL)]; [rewrite at_empty in Hc; lia|].
                 exists k, h. split_and!; [done|by left|]. apply (li_hb l HI _ _ _ _ Hh Hg). by rewrite Hhc.
              ** destruct Hm2 as [->|(k & h & Hh & Hm)]; [rewrite at_empty in Hle; lia|].
                 exists k, h. split_and!; [done|by right|]. apply (li_hb l HI _ _ _ _ Hh Hg). rewrite (Hm1 _ _ Hh Hm). lia.
      * split; [|done]. intros _. done.
  - right. exists (length l), e. split; [apply lookup_new; by right|]. split_and!; [done|done|].
    intros j f [Hf|[-> _]]%lookup_new _; [apply lookup_lt_Some in Hf; lia|done].
Qed.

(** ** The invariant of the system *)
Record ginv (ss : list string) (s : gst) : Prop := {
  gi_log : log_inv (g_log s);
  gi_clock : ∀ p c, g_clock s !! p = Some c → last_clock (g_log s) p c ∧ p ∈ ss;
  gi_procs : ∀ i e, g_log s !! i = Some e → e_proc e ∈ ss;
  gi_send : ∀ i e k, g_log s !! i = Some e → e_what e = WSend k →
    ∃ c, g_calls s !! k = Some c ∧ c_req c = e_clock e;
  gi_reply : ∀ i e k, g_log s !! i = Some e → e_what e = WReply k →
    ∃ c, g_calls s !! k = Some c ∧ c_srv c = Replied (e_clock e);
  gi_pending : ∀ k c, g_calls s !! k = Some c → c_srv c = Pending → ∃ i e, g_log s !! i = Some e ∧ e_what e = WSend k;
  gi_replied : ∀ k c d, g_calls s !! k = Some c → c_srv c = Replied d → ∃ i e, g_log s !! i = Some e ∧ e_what e = WReply k }.

Lemma last_clock_other l e q c : last_clock l q c → e_proc e ≠ q → last_clock (l ++ [e]) q c.
Proof.
  intros HL Hne. destruct HL as [[-> H]|(i & f & Hf & Hp & Hc & H)].
  - left. split; [done|]. intros i f [Hf|[_ ->]]%lookup_new; [by eapply H|done].
  - right. exists i, f. split; [apply lookup_app_Some; by left|]. split_and!; [done..|].
    intros j g [Hg|[_ ->]]%lookup_new Hq; [by eapply H|done].
Qed.

(** An entry by a running process, and a change to one call *)
Lemma record_inv ss s p w d c' s' k c0 :
  ginv ss s → record p w d s = Some (c', s') →
  (∀ i a, g_log s !! i = Some a → msg a w → e_clock a = d) →
  (d = ∅ ∨ ∃ i a, g_log s !! i = Some a ∧ msg a w) →
  (* the changed call *)
  (∀ k', w = WSend k' → k' = k ∧ c_req c0 = c') →
  (∀ k', w = WReply k' → k' = k ∧ c_srv c0 = Replied c') →
  (∀ c, g_calls s !! k = Some c → c_req c0 = c_req c ∧ (∀ d, c_srv c = Replied d → c_srv c0 = Replied d)) →
  (c_srv c0 = Pending → w = WSend k ∨ ∃ c, g_calls s !! k = Some c ∧ c_srv c = Pending) →
  (∀ d, c_srv c0 = Replied d → w = WReply k ∨ ∃ c, g_calls s !! k = Some c ∧ c_srv c = Replied d) →
  ginv ss (set_call k c0 s').
Proof.
  intros HI Hr Hm1 Hm2 Hs Hp Hold Hpe Hre. unfold record in Hr.
  destruct (g_clock s !! p) as [c|] eqn:Hc; [|done]. injection Hr as Hc' <-.
  destruct (gi_clock _ _ HI _ _ Hc) as [HL Hin].
  destruct (extend_inv _ p w c d (gi_log _ _ HI) HL Hm1 Hm2) as [HI' HL']. rewrite Hc' in *.
  assert (∀ i e, g_log s !! i = Some e → (g_log s ++ [Entry p w c']) !! i = Some e) as Hmono.
  { intros i e He. apply lookup_app_Some. by left. }
  assert ((g_log s ++ [Entry p w c']) !! length (g_log s) = Some (Entry p w c')) as Hnew by (apply lookup_new; by right).
  split; simpl.
  - done.
  - intros q x [[<- <-]|[Hne Hx]]%lookup_insert_Some; [done|].
    destruct (gi_clock _ _ HI _ _ Hx) as [Hl Hq]. split; [|done]. by apply last_clock_other.
  - intros i e [He|[_ ->]]%lookup_new; [by eapply gi_procs|done].
  - intros i e k' [He|[_ ->]]%lookup_new Hw.
    + destruct (gi_send _ _ HI _ _ _ He Hw) as (x & Hx & Ex). destruct (decide (k' = k)) as [->|Hne].
      * exists c0. rewrite lookup_insert. split; [done|]. destruct (Hold _ Hx) as [E _]. congruence.
      * exists x. by rewrite lookup_insert_ne.
    + simpl in Hw. destruct (Hs _ Hw) as [-> E]. exists c0. by rewrite lookup_insert.
  - intros i e k' [He|[_ ->]]%lookup_new Hw.
    + destruct (gi_reply _ _ HI _ _ _ He Hw) as (x & Hx & Ex). destruct (decide (k' = k)) as [->|Hne].
      * exists c0. rewrite lookup_insert. split; [done|]. destruct (Hold _ Hx) as [_ E]. by apply E.
      * exists x. by rewrite lookup_insert_ne.
    + simpl in Hw. destruct (Hp _ Hw) as [-> E]. exists c0. by rewrite lookup_insert.
  - intros k' x [[<- <-]|[Hne Hx]]%lookup_insert_Some Hv.
    + destruct (Hpe Hv) as [->|(x & Hx & Hxv)]; [eauto|].
      destruct (gi_pending _ _ HI _ _ Hx Hxv) as (i & e & He & Hw). eauto.
    + destruct (gi_pending _ _ HI _ _ Hx Hv) as (i & e & He & Hw). eauto.
  - intros k' x dd [[<- <-]|[Hne Hx]]%lookup_insert_Some Hv.
    + destruct (Hre _ Hv) as [->|(x & Hx & Hxv)]; [eauto|].
      destruct (gi_replied _ _ HI _ _ _ Hx Hxv) as (i & e & He & Hw). eauto.
    + destruct (gi_replied _ _ HI _ _ _ Hx Hv) as (i & e & He & Hw). eauto.
Qed.

Lemma gstep_inv ss s m : ginv ss s → (∀ p, m = GStart p → p ∉ ss) → ginv (starts [m] ++ ss) (gstep s m).
Proof.
  intros HI Hm.
  assert (∀ (a : entry) (w : what) (x : clock), (∀ k, w ≠ WServe k) → (∀ k, w ≠ WReturn k) → msg a w → e_clock a = x) as Hno.
  { intros a w x H1 H2 [(k & _ & E)|(k & _ & E)]; [by destruct (H1 k)|by destruct (H2 k)]. }
  destruct m as [p|p|p t|k p q|k|k q|k|k|k]; simpl.
  - specialize (Hm p eq_refl).
    assert (last_clock (g_log s) p ∅) as HL.
    { left. split; [done|]. intros i e He <-. apply Hm. by eapply gi_procs. }
    assert (∀ i a, g_log s !! i = Some a → msg a WInit → e_clock a = ∅) as Hm1 by (intros i a _; by apply Hno).
    destruct (extend_inv _ p WInit ∅ ∅ (gi_log _ _ HI) HL Hm1 ltac:(by left)) as [HI' HL'].
    assert (merge (tick p ∅) ∅ = tick p ∅) as E.
    { unfold merge. apply map_eq. intros q. rewrite lookup_union_with, lookup_empty. by destruct (tick p ∅ !! q). }
    rewrite E in *. destruct (g_clock s !! p) as [c|] eqn:Hc.
    + destruct (gi_clock _ _ HI _ _ Hc). done.
    + destruct HI as [H1 H2 H3 H4 H5 H6 H7]. split; simpl.
      * done.
      * intros q x [[<- <-]|[Hne Hx]]%lookup_insert_Some; [split; [done|by left]|].
        destruct (H2 _ _ Hx) as [Hl Hq]. split; [by apply last_clock_other|by right].
      * intros i e [He|[_ ->]]%lookup_new; [right; by eapply H3|by left].
      * intros i e k [He|[_ ->]]%lookup_new Hw; [by eapply H4|done].
      * intros i e k [He|[_ ->]]%lookup_new Hw; [by eapply H5|done].
      * intros k c Hk Hv. destruct (H6 _ _ Hk Hv) as (i & e & He & Hw). exists i, e. split; [apply lookup_app_Some; by left|done].
      * intros k c d Hk Hv. destruct (H7 _ _ _ Hk Hv) as (i & e & He & Hw). exists i, e. split; [apply lookup_app_Some; by left|done].
  - destruct HI as [H1 H2 H3 H4 H5 H6 H7]. split; simpl.
    + done.
    + intros q c [_ Hq]%lookup_delete_Some. by apply H2.
    + done.
    + intros i e k He Hw. destruct (H4 _ _ _ He Hw) as (c & Hc & E). exists (crash_call p c). by rewrite lookup_fmap, Hc.
    + intros i e k He Hw. destruct (H5 _ _ _ He Hw) as (c & Hc & E). exists (crash_call p c). rewrite lookup_fmap, Hc.
      split; [done|]. simpl. by rewrite E.
    + intros k c Hk Hv. rewrite lookup_fmap in Hk. destruct (g_calls s !! k) as [c1|] eqn:E; [|done]. injection Hk as <-.
      apply (H6 k c1); [done|]. simpl in Hv. destruct (c_srv c1); try done. by destruct (decide _).
    + intros k c d Hk Hv. rewrite lookup_fmap in Hk. destruct (g_calls s !! k) as [c1|] eqn:E; [|done]. injection Hk as <-.
      apply (H7 k c1 d); [done|]. simpl in Hv. destruct (c_srv c1); try done. by destruct (decide _).
  - destruct (record p _ ∅ s) as [[c s']|] eqn:Hr; [|done].
    unfold record in Hr. destruct (g_clock s !! p) as [c0|] eqn:Hc; [|done]. injection Hr as Hc' <-.
    destruct (gi_clock _ _ HI _ _ Hc) as [HL Hin].
    destruct (extend_inv _ p (WLocal t) c0 ∅ (gi_log _ _ HI) HL) as [HI' HL']; [intros i a _; by apply Hno|by left|].
    rewrite Hc' in *. destruct HI as [H1 H2 H3 H4 H5 H6 H7]. split; simpl.
    + done.
    + intros q x [[<- <-]|[Hne Hx]]%lookup_insert_Some; [done|].
      destruct (H2 _ _ Hx) as [Hl Hq]. split; [by apply last_clock_other|done].
    + intros i e [He|[_ ->]]%lookup_new; [by eapply H3|done].
    + intros i e k' [He|[_ ->]]%lookup_new Hw; [by eapply H4|done].
    + intros i e k' [He|[_ ->]]%lookup_new Hw; [by eapply H5|done].
    + intros k' c1 Hk Hv. destruct (H6 _ _ Hk Hv) as (i & e & He & Hw). exists i, e. split; [apply lookup_app_Some; by left|done].
    + intros k' c1 d Hk Hv. destruct (H7 _ _ _ Hk Hv) as (i & e & He & Hw). exists i, e. split; [apply lookup_app_Some; by left|done].
  - destruct (g_calls s !! k) as [c|] eqn:Hk; [done|]. destruct (record p _ ∅ s) as [[c s']|] eqn:Hr; [|done].
    eapply record_inv; [exact HI|exact Hr|intros i a _; by apply Hno|by left|..].
    + intros k' [= ->]. done.
    + done.
    + intros c1 Hc1. congruence.
    + by left.
    + done.
  - destruct (g_calls s !! k) as [[p q c [] b]|] eqn:Hk; try done.
    destruct (record q _ c s) as [[c' s']|] eqn:Hr; [|done].
    eapply record_inv; [exact HI|exact Hr|..].
    + intros i a Ha [(k' & Hw & [= <-])|(k' & _ & [=])]. destruct (gi_send _ _ HI _ _ _ Ha Hw) as (x & Hx & Ex).
      rewrite Hk in Hx. injection Hx as <-. done.
    + right. destruct (gi_pending _ _ HI _ _ Hk eq_refl) as (i & e & He & Hw). exists i, e. split; [done|]. left. by exists k.
    + done.
    + done.
    + intros c1 Hc1. rewrite Hk in Hc1. injection Hc1 as <-. done.
    + done.
    + done.
  - destruct (g_calls s !! k) as [c|] eqn:Hk; [done|]. destruct (record q _ ∅ s) as [[c s']|] eqn:Hr; [|done].
    eapply record_inv; [exact HI|exact Hr|intros i a _; by apply Hno|by left|done..| | |].
    + intros c1 Hc1. congruence.
    + done.
    + done.
  - destruct (g_calls s !! k) as [[p q c [] b]|] eqn:Hk; try done.
    destruct (record q _ ∅ s) as [[c' s']|] eqn:Hr; [|done].
    eapply record_inv; [exact HI|exact Hr|intros i a _; by apply Hno|by left|..].
    + done.
    + intros k' [= ->]. done.
    + intros c1 Hc1. rewrite Hk in Hc1. injection Hc1 as <-. done.
    + done.
    + intros d _. by left.
  - destruct (g_calls s !! k) as [[[p|] q c [| |d|] []]|] eqn:Hk; try done.
    destruct (record p _ d s) as [[c' s']|] eqn:Hr; [|done].
    eapply record_inv; [exact HI|exact Hr|..].
    + intros i a Ha [(k' & _ & [=])|(k' & Hw & [= <-])]. destruct (gi_reply _ _ HI _ _ _ Ha Hw) as (x & Hx & Ex).
      rewrite Hk in Hx. injection Hx as <-. simpl in Ex. congruence.
    + right. destruct (gi_replied _ _ HI _ _ _ Hk eq_refl) as (i & e & He & Hw). exists i, e. split; [done|]. right. by exists k.
    + done.
    + done.
    + intros c1 Hc1. rewrite Hk in Hc1. injection Hc1 as <-. done.
    + done.
    + intros d' Hd'. right. eauto.
  - destruct (g_calls s !! k) as [[[p|] q c v []]|] eqn:Hk; try done.
    destruct (record p _ ∅ s) as [[c' s']|] eqn:Hr; [|done].
    eapply record_inv; [exact HI|exact Hr|intros i a _; by apply Hno|by left|done|done|..].
    + intros c1 Hc1. rewrite Hk in Hc1. injection Hc1 as <-. done.
    + intros Hv. right. eauto.
    + intros d Hd. right. eauto.
Qed.
Lemma ginv_sub ss ss' s : ginv ss s → (∀ p, p ∈ ss → p ∈ ss') → ginv ss' s.
Proof.
  intros [H1 H2 H3 H4 H5 H6 H7] Hs. split; try done.
  - intros p c Hc. destruct (H2 _ _ Hc). eauto.
  - intros i e He. eauto.
Qed.
Lemma ginv_init : ginv [] gst_init.
Proof.
  split; simpl; try (intros *; by rewrite lookup_empty); try (intros *; by rewrite lookup_nil).
  split; intros *; by rewrite ?lookup_nil.
Qed.
Lemma grun_inv ms : NoDup (starts ms) → ginv (starts ms) (grun ms).
Proof.
  unfold grun. induction ms as [|m ms IH] using rev_ind; intros Hnd; [apply ginv_init|].
  unfold starts in *. rewrite omap_app in *. apply NoDup_app in Hnd as (H1 & H2 & _).
  rewrite foldl_app. simpl foldl. eapply ginv_sub; [apply gstep_inv; [by apply IH|]|].
  - intros p -> Hin. apply (H2 p Hin). simpl. by left.
  - intros p. unfold starts. rewrite !elem_of_app. tauto.
Qed.

(** ** The order of clocks is the order of events *)
Lemma before_rtc l i j : before l i j ↔ rtc (edge l) i j ∧ i ≠ j.
Proof.
  split.
  - intros H. split; [by apply tc_rtc|].
    intros ->. assert (∀ i j, tc (edge l) i j → i < j) as Hlt; [|apply Hlt in H; lia].
    clear. induction 1 as [i j H|i j k H _ IH]; [by eapply edge_lt|]. apply edge_lt in H. lia.
  - intros [H Hne]. apply rtc_tc in H as [->|H]; [done|done].
Qed.
Lemma clock_order l i j e f : log_inv l → l !! i = Some e → l !! j = Some f →
  before l i j ↔ clock_lt (e_clock e) (e_clock f).
Proof.
  intros HI He Hf. rewrite before_rtc. split.
  - intros [Hr Hne]. split.
    + intros p. destruct (decide (at_ (e_clock e) p = 0)) as [->|H0]; [lia|].
      destruct (li_src l HI _ _ _ He H0) as (k & g & Hg & Hp & Hown).
      rewrite <- Hown, <- Hp. apply (li_hb l HI _ _ _ _ Hf Hg). etrans; [|exact Hr].
      apply (li_hb l HI _ _ _ _ He Hg). rewrite Hp. lia.
    + exists (e_proc f). destruct (decide (at_ (e_clock e) (e_proc f) < at_ (e_clock f) (e_proc f))) as [|Hge]; [done|].
      assert (rtc (edge l) j i) as Hr'%rtc_le by (apply (li_hb l HI _ _ _ _ He Hf); unfold own; lia).
      apply rtc_le in Hr. lia.
  - intros [H1 [p Hp]]. split; [apply (li_hb l HI _ _ _ _ Hf He); apply H1|]. intros ->.
    replace f with e in Hp by congruence. lia.
Qed.
