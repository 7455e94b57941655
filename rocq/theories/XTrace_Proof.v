(** * Proofs about X-Trace instrumentation *)
From Verif Require Export XTrace_Spec.
From stdpp Require Export list.
Set Default Proof Using "Type".

Lemma sub_l (l k : list event) : l ⊆ l ++ k.
Proof. intros e He. apply elem_of_app. by left. Qed.
Lemma leads_mono l l' i j : l ⊆ l' → leads l i j → leads l' i j.
Proof.
  intros Hl. unfold leads. induction 1 as [i j (e & He & H)|i j k (e & He & H) _ IH].
  - apply tc_once. exists e. split; [by apply Hl|done].
  - eapply tc_l; [exists e; split; [by apply Hl|done]|done].
Qed.
Lemma is_mono l l' q k i : l ⊆ l' → is l q k i → is l' q k i.
Proof. intros Hl (e & He & H). exists e. split; [by apply Hl|done]. Qed.
Lemma linked_mono l l' e : l ⊆ l' → linked l e → linked l' e.
Proof.
  intros Hl. unfold linked. destruct (e_kind e) as [| | | | | |g|n m]; try done.
  - intros [H|(c & H1 & H2)]; [by left|right]. exists c. split; [by eapply is_mono|done].
  - intros (c & H1 & H2). exists c. split; [by eapply is_mono|by eapply leads_mono].
  - intros (c & H1 & H2). exists c. split; [by eapply is_mono|by eapply leads_mono].
  - intros (p & n & c & H0 & H1 & H2). exists p, n, c. split; [done|]. split; [by eapply is_mono|by eapply leads_mono].
  - intros (c & H1 & H2). exists c. split; [by eapply is_mono|by eapply leads_mono].
  - intros [(c & H1 & H2) H]. split.
    + exists c. split; [by eapply is_mono|by eapply leads_mono].
    + intros Hg. destruct (H Hg) as (d & H3 & H4). exists d. split; [by eapply is_mono|by eapply leads_mono].
  - intros (c & H1 & H2). exists c. split; [by eapply is_mono|by eapply leads_mono].
Qed.

Definition label (e : event) : path * kind := (e_path e, e_kind e).

(** The run from [s] to [s'] reports events labelled [lab], all of task [t], after event [x0], and well linked. *)
Definition seg (t x0 : nat) (lab : list (path * kind)) (s s' : xst) : Prop :=
  ∃ new, x_events s' = x_events s ++ new ∧ map label new = lab ∧
    map e_id new = seq (x_next s) (length new) ∧ x_next s' = x_next s + length new ∧
    Forall (λ e, e_task e = Some t ∧ leads (x_events s') x0 (e_id e) ∧ linked (x_events s') e) new.

Lemma seg_refl t x s : seg t x [] s s.
Proof. exists []. rewrite app_nil_r. simpl. split_and!; [done..|lia|constructor]. Qed.
Lemma seg_sub t x lab s s' : seg t x lab s s' → x_events s ⊆ x_events s'.
Proof. intros (new & -> & _). apply sub_l. Qed.
Lemma seg_trans t x la lb s s1 s2 : seg t x la s s1 → seg t x lb s1 s2 → seg t x (la ++ lb) s s2.
Proof.
  intros HA HB. pose proof (seg_sub _ _ _ _ _ HB) as Hsub. destruct HA as (na & Ea & La & Ia & Na & Fa), HB as (nb & Eb & Lb & Ib & Nb & Fb).
  exists (na ++ nb). rewrite Eb, Ea. split_and!.
  - by rewrite app_assoc.
  - by rewrite map_app, La, Lb.
  - rewrite map_app, Ia, Ib, Na, app_length, seq_app. done.
  - rewrite app_length. lia.
  - rewrite <- Ea, <- Eb. apply Forall_app. split; [|done]. eapply Forall_impl; [exact Fa|].
    intros e (H1 & H2 & H3). split; [done|]. split; [by eapply leads_mono|by eapply linked_mono].
Qed.
Lemma seg_from t x y lab s s' : leads (x_events s) x y → seg t y lab s s' → seg t x lab s s'.
Proof.
  intros Hl H. pose proof (seg_sub _ _ _ _ _ H) as Hsub. destruct H as (new & E & La & I & N & F). exists new. split_and!; [done..|].
  eapply Forall_impl; [exact F|]. intros e (H1 & H2 & H3). split; [done|]. split; [|done].
  unfold leads in *. eapply tc_transitive; [|exact H2]. by eapply leads_mono.
Qed.

(** One event *)
Lemma report_ok t x p k b s b' s' :
  report p k b s = (b', s') → b_task b = Some t →
  (∃ y, y ∈ b_last b ∧ (y = x ∨ leads (x_events s) x y)) →
  (linked (x_events s') (Event (x_next s) (Some t) (b_last b) p k)) →
  seg t x [(p, k)] s s' ∧ b' = Bag (Some t) [x_next s] ∧ is (x_events s') p k (x_next s) ∧ leads (x_events s') x (x_next s).
Proof.
  intros E Ht (y & Hy & Hxy) Hl. unfold report in E. injection E as <- <-. rewrite Ht in *. simpl in *.
  set (e := Event (x_next s) (Some t) (b_last b) p k) in *.
  assert (e ∈ x_events s ++ [e]) as He by (apply elem_of_app; right; by left).
  assert (leads (x_events s ++ [e]) x (x_next s)) as Hlead.
  { destruct Hxy as [->|Hxy].
    - apply tc_once. by exists e.
    - unfold leads. eapply tc_r; [|by exists e]. eapply leads_mono; [|exact Hxy]. by apply sub_l. }
  split_and!; [|done|by exists e|done].
  exists [e]. simpl. split_and!; [done..|lia|]. by apply Forall_cons.
Qed.
Lemma xlog_task L p k b s t : b_task b = Some t → xlog L p k b s = report p k b s.
Proof. intros Ht. unfold xlog. by rewrite Ht. Qed.

Scheme handler_mut := Induction for handler Sort Prop with stmts_mut := Induction for stmts Sort Prop.

Definition ctx_ok (t x0 : nat) (s : xst) (b : bag) : Prop :=
  b_task b = Some t ∧ ∃ y, b_last b = [y] ∧ (y = x0 ∨ leads (x_events s) x0 y).
Lemma ctx_ok_mono t x0 s s' b : x_events s ⊆ x_events s' → ctx_ok t x0 s b → ctx_ok t x0 s' b.
Proof. intros Hs [H (y & H1 & H2)]. split; [done|]. exists y. split; [done|]. destruct H2; [by left|right; by eapply leads_mono]. Qed.

(** What follows the start event *)
Definition after (L : lib) (p : path) (h : handler) (b : bag) (s : xst) : bag * xst :=
  match h with
  | Handler body err =>
      let s := exec L p 0 body [b] s in
      let '(b, s) := if err then xlog L p KError b s else (b, s) in
      xlog L p KEnd b s
  end.
Lemma serve_after L p h b s t : b_task b = Some t →
  serve L p h b s = (let '(b, s) := xlog L p KStart b s in after L p h b s).
Proof. intros Ht. destruct h as [body err]. simpl. rewrite Ht. by destruct (xlog _ _ _ _ _). Qed.

Definition after_ok (h : handler) : Prop := ∀ L p t x s r s',
  well_handler h → is (x_events s) p KStart x → after L p h (Bag (Some t) [x]) s = (r, s') →
  seg t x (tail (reported p h)) s s' ∧ ∃ y, r = Bag (Some t) [y] ∧ is (x_events s') p KEnd y ∧ leads (x_events s') x y.
Definition exec_ok (body : stmts) : Prop := ∀ L p n t x cs s,
  well (length cs) body → is (x_events s) p KStart x → Forall (ctx_ok t x s) cs →
  seg t x (reported_body p n body) s (exec L p n body cs s).

Lemma ctx_at_ok t x s cs i : i < length cs → Forall (ctx_ok t x s) cs → ctx_ok t x s (ctx_at cs i).
Proof.
  intros Hi H. unfold ctx_at. destruct (cs !! i) as [b|] eqn:E; [|apply lookup_ge_None in E; lia].
  simpl. by eapply Forall_lookup_1.
Qed.

(** A server called from the event [x] *)
Lemma serve_ok h L q t x s r s' :
  after_ok h → well_handler h → is (x_events s) q KClientStart x → serve L q h (Bag (Some t) [x]) s = (r, s') →
  seg t x (reported q h) s s' ∧ ∃ y, r = Bag (Some t) [y] ∧ is (x_events s') q KEnd y ∧ leads (x_events s') x y.
Proof.
  intros HA Hw Hx E. rewrite (serve_after _ _ _ _ _ t) in E by done. rewrite (xlog_task _ _ _ _ _ t) in E by done.
  destruct (report q KStart _ s) as [b1 s1] eqn:E1.
  edestruct (report_ok t x q KStart _ _ _ _ E1) as (S1 & -> & I1 & L1); [done|exists x; split; [by left|by left]| |].
  { simpl. right. exists x. split; [|done]. unfold report in E1. injection E1 as _ <-. simpl.
    eapply is_mono; [|exact Hx]. by apply sub_l. }
  destruct (HA L q t _ _ _ _ Hw I1 E) as (S2 & y & -> & I2 & L2).
  split.
  - assert (reported q h = [(q, KStart)] ++ tail (reported q h)) as -> by (by destruct h).
    eapply seg_trans; [exact S1|]. by eapply seg_from.
  - exists y. split_and!; [done..|]. eapply tc_transitive; [|exact L2]. eapply leads_mono; [|exact L1]. by eapply seg_sub.
Qed.

Lemma all_ok h : after_ok h.
Proof.
  revert h. apply (handler_mut after_ok exec_ok).
    - intros body IH err L p t x s r s' Hw Hx E. cbn [after] in E.
      pose proof (IH L p 0 t x [Bag (Some t) [x]] s Hw Hx) as S1.
      assert (Forall (ctx_ok t x s) [Bag (Some t) [x]]) as Hc.
      { apply Forall_cons. split; [|constructor]. split; [done|]. exists x. split; [done|by left]. }
      specialize (S1 Hc). set (s1 := exec L p 0 body [Bag (Some t) [x]] s) in *. clearbody s1.
      assert (is (x_events s1) p KStart x) as Hx1 by (eapply is_mono; [by eapply seg_sub|done]).
      cbn [reported tail app].
      destruct err; cbn [when app].
      + rewrite (xlog_task _ _ _ _ _ t) in E by done.
        destruct (report p KError _ s1) as [b2 s2] eqn:E2.
        assert (x_events s1 ⊆ x_events s2) as H12.
        { unfold report in E2. injection E2 as _ <-. simpl. by apply sub_l. }
        edestruct (report_ok t x p KError _ _ _ _ E2) as (S2 & -> & I2 & L2); [done|exists x; split; [by left|by left]| |].
        { simpl. exists x. split; [by eapply is_mono|]. unfold report in E2. injection E2 as _ <-. simpl.
          apply tc_once. eexists. split; [apply elem_of_app; right; by left|]. split; [done|by left]. }
        rewrite (xlog_task _ _ _ _ _ t) in E by done.
        destruct (report p KEnd _ s2) as [b3 s3] eqn:E3.
        assert (x_events s2 ⊆ x_events s3) as H23.
        { unfold report in E3. injection E3 as _ <-. simpl. by apply sub_l. }
        edestruct (report_ok t x p KEnd _ _ _ _ E3) as (S3 & -> & I3 & L3); [done|eexists; split; [by left|by right]| |].
        { simpl. exists x. split; [eapply is_mono; [exact H23|by eapply is_mono]|].
          eapply tc_r; [eapply leads_mono; [exact H23|exact L2]|]. unfold report in E3. injection E3 as _ <-. simpl.
          eexists. split; [apply elem_of_app; right; by left|]. split; [done|by left]. }
        injection E as <- <-. split.
        * eapply seg_trans; [exact S1|]. apply (seg_trans _ _ [_] [_] _ _ _ S2 S3).
        * eexists. split_and!; [done..].
      + rewrite (xlog_task _ _ _ _ _ t) in E by done.
        edestruct (report_ok t x p KEnd _ _ _ _ E) as (S3 & -> & I3 & L3); [done|exists x; split; [by left|by left]| |].
        { unfold report in E. injection E as _ <-. simpl. exists x.
          split; [eapply is_mono; [|exact Hx1]; by apply sub_l|].
          apply tc_once. eexists. split; [apply elem_of_app; right; by left|]. split; [done|by left]. }
        split; [by eapply seg_trans|]. eexists. split_and!; [done..].
    - intros L p n t x cs s _ _ _. apply seg_refl.
    - intros i msg rest IH L p n t x cs s [Hi Hw] Hx Hcs. cbn [exec reported_body].
      destruct (ctx_at_ok _ _ _ _ _ Hi Hcs) as [Ht (y & Hy & Hxy)]. rewrite Ht.
      destruct (report p (KLog n msg) _ s) as [b1 s1] eqn:E1.
      assert (x_events s ⊆ x_events s1) as H1.
      { unfold report in E1. injection E1 as _ <-. simpl. by apply sub_l. }
      edestruct (report_ok t x p (KLog n msg) _ _ _ _ E1) as (S1 & -> & I1 & L1); [done|exists y; rewrite Hy; split; [by left|done]| |].
      { simpl. exists x. split; [by eapply is_mono|]. unfold report in E1. injection E1 as _ <-. simpl in *.
        assert (causes (x_events s ++ [Event (x_next s) (b_task (ctx_at cs i)) (b_last (ctx_at cs i)) p (KLog n msg)]) y (x_next s)) as Hc.
        { eexists. split; [apply elem_of_app; right; by left|]. split; [done|]. simpl. rewrite Hy. by left. }
        destruct Hxy as [->|Hxy]; [by apply tc_once|]. eapply tc_r; [|exact Hc]. by eapply leads_mono. }
      eapply seg_trans; [exact S1|]. apply IH.
      + rewrite app_length. simpl. by rewrite Nat.add_1_r.
      + by eapply is_mono.
      + apply Forall_app. split.
        * eapply Forall_impl; [exact Hcs|]. intros b. by apply ctx_ok_mono.
        * apply Forall_cons. split; [|constructor]. split; [done|]. eexists. split; [done|by right].
    - intros i f h IHh rest IH L p n t x cs s (Hi & Hh & Hw) Hx Hcs. cbn [exec reported_body].
      destruct (ctx_at_ok _ _ _ _ _ Hi Hcs) as [Ht (y & Hy & Hxy)].
      rewrite (xlog_task _ _ _ _ _ t) by done. set (q := p ++ [n]).
      destruct (report q KClientStart _ s) as [b1 s1] eqn:E1.
      assert (x_events s ⊆ x_events s1) as H1.
      { unfold report in E1. injection E1 as _ <-. simpl. by apply sub_l. }
      edestruct (report_ok t x q KClientStart _ _ _ _ E1) as (S1 & -> & I1 & L1); [done|exists y; rewrite Hy; split; [by left|done]| |].
      { simpl. exists p, n, x. split; [done|]. split; [by eapply is_mono|]. unfold report in E1. injection E1 as _ <-. simpl in *.
        assert (causes (x_events s ++ [Event (x_next s) (b_task (ctx_at cs i)) (b_last (ctx_at cs i)) q KClientStart]) y (x_next s)) as Hc.
        { eexists. split; [apply elem_of_app; right; by left|]. split; [done|]. simpl. rewrite Hy. by left. }
        destruct Hxy as [->|Hxy]; [by apply tc_once|]. eapply tc_r; [|exact Hc]. by eapply leads_mono. }
      set (z := x_next s) in *.
      (* the server *)
      set (got := match f with Arrives => true | _ => false end).
      destruct (match f with RequestLost => (no_bag, s1) | _ => serve L q h (Bag (Some t) [z]) s1 end) as [r s2] eqn:E2.
      assert (seg t z (match f with RequestLost => [] | _ => reported q h end) s1 s2 ∧
        (got = true → ∃ y, r = Bag (Some t) [y] ∧ is (x_events s2) q KEnd y ∧ leads (x_events s2) z y)) as [S2 HR].
      { destruct f.
        - destruct (serve_ok h L q t z s1 r s2 IHh Hh I1 E2) as [? ?]. auto.
        - destruct (serve_ok h L q t z s1 r s2 IHh Hh I1 E2) as [? ?]. split; [done|by intros].
        - injection E2 as _ <-. split; [apply seg_refl|by intros]. }
      assert (x_events s1 ⊆ x_events s2) as H2 by (by eapply seg_sub).
      assert (is (x_events s2) q KClientStart z) as I2 by (by eapply is_mono).
      assert (leads (x_events s2) x z) as L2 by (by eapply leads_mono).
      set (b2 := if got then xmerge (Bag (Some t) [z]) r else Bag (Some t) [z]).
      assert (b_task b2 = Some t ∧ z ∈ b_last b2 ∧
        (got = true → ∃ y, y ∈ b_last b2 ∧ is (x_events s2) q KEnd y)) as (Hb1 & Hb2 & Hb3).
      { unfold b2. destruct got; simpl.
        - split; [done|]. split; [by left|]. intros _. destruct (HR eq_refl) as (y' & -> & Hy' & _). exists y'. simpl. split; [right; by left|done].
        - split; [done|]. split; [by left|by intros]. }
      clearbody b2.
      (* what the client reports after it *)
      set (failed := match h with Handler _ err => err || negb got end).
      assert (∃ b3 s3 s4, (if failed then xlog L q KClientError b2 s2 else (b2, s2)) = (b3, s3) ∧
        snd (xlog L q (KClientEnd got) b3 s3) = s4 ∧
        seg t z ((if failed then [(q, KClientError)] else []) ++ [(q, KClientEnd got)]) s2 s4) as (b3 & s3 & s4 & E3 & E4 & S4).
      { assert (∀ b3 s3, x_events s2 ⊆ x_events s3 → b_task b3 = Some t → (∃ y, y ∈ b_last b3 ∧ (y = z ∨ leads (x_events s3) z y)) →
          (got = true → ∃ w y, is (x_events s3) q KEnd w ∧ y ∈ b_last b3 ∧ (w = y ∨ leads (x_events s3) w y)) →
          seg t z [(q, KClientEnd got)] s3 (snd (xlog L q (KClientEnd got) b3 s3))) as HE.
        { intros b3 s3 Hs Ht3 (y3 & Hy3 & Hl3) Hg3. rewrite (xlog_task _ _ _ _ _ t) by done.
          destruct (report q (KClientEnd got) b3 s3) as [b4 s4] eqn:E4. simpl.
          assert (∀ w y, y ∈ b_last b3 → (y = w ∨ leads (x_events s3) w y) → leads (x_events s4) w (x_next s3)) as Hlead.
          { intros w y' Hin Hw'. unfold report in E4. injection E4 as _ <-. simpl.
            assert (causes (x_events s3 ++ [Event (x_next s3) (b_task b3) (b_last b3) q (KClientEnd got)]) y' (x_next s3)) as Hc.
            { eexists. split; [apply elem_of_app; right; by left|]. split; done. }
            destruct Hw' as [->|Hw']; [by apply tc_once|]. eapply tc_r; [|exact Hc]. eapply leads_mono; [|exact Hw'].
            by apply sub_l. }
          assert (x_events s3 ⊆ x_events s4) as H34.
          { unfold report in E4. injection E4 as _ <-. simpl. by apply sub_l. }
          edestruct (report_ok t z q (KClientEnd got) _ _ _ _ E4) as (S4 & _); [done|by exists y3| |done].
          simpl. split.
          - exists z. split; [eapply is_mono; [|exact I2]; by etrans|]. by eapply Hlead.
          - intros Hg. destruct (Hg3 Hg) as (w & y4 & Hw4 & Hy4 & Hl4). exists w. split; [by eapply is_mono|].
            eapply Hlead; [exact Hy4|]. destruct Hl4; [left|right]; done. }
        destruct failed.
        - rewrite (xlog_task _ _ _ _ _ t) by done.
          destruct (report q KClientError b2 s2) as [b3 s3] eqn:E3. exists b3, s3. eexists. split; [done|]. split; [done|].
          assert (x_events s2 ⊆ x_events s3) as H23.
          { unfold report in E3. injection E3 as _ <-. simpl. by apply sub_l. }
          assert (∀ y, y ∈ b_last b2 → leads (x_events s3) y (x_next s2)) as Hc.
          { intros y' Hin. unfold report in E3. injection E3 as _ <-. simpl. apply tc_once.
            eexists. split; [apply elem_of_app; right; by left|]. split; done. }
          edestruct (report_ok t z q KClientError _ _ _ _ E3) as (S3 & -> & I3 & L3); [done|exists z; split; [done|by left]| |].
          { simpl. exists z. split; [by eapply is_mono|]. by apply Hc. }
          eapply seg_trans; [exact S3|]. apply HE; [done|done|..].
          + eexists. split; [by left|by right].
          + intros Hg. destruct (Hb3 Hg) as (w & Hw1 & Hw2). exists w. eexists. split; [by eapply is_mono|].
            split; [by left|]. right. by apply Hc.
        - exists b2, s2. eexists. split; [done|]. split; [done|]. apply HE; [done|done|..].
          + exists z. split; [done|by left].
          + intros Hg. destruct (Hb3 Hg) as (w & Hw1 & Hw2). exists w, w. split; [done|]. split; [done|by left]. }
      rewrite E3. destruct (xlog L q (KClientEnd got) b3 s3) as [b4 s4'] eqn:E5. simpl in E4. subst s4'.
      assert (match f, h with
        | Arrives, Handler _ err => when err [(q, KClientError)] ++ [(q, KClientEnd true)]
        | _, _ => [(q, KClientError); (q, KClientEnd false)] end =
        (if failed then [(q, KClientError)] else []) ++ [(q, KClientEnd got)]) as ->.
      { unfold failed, got. destruct h as [bd err], f; simpl; rewrite ?orb_true_r, ?orb_false_r; done. }
      assert (x_events s2 ⊆ x_events s4) as H24 by (by eapply seg_sub).
      assert (x_events s ⊆ x_events s4) as H04 by (do 2 (etrans; [eassumption|]); done).
      apply (seg_trans _ _ [_] _ _ _ _ S1). apply (seg_trans _ _ _ _ _ s2).
      { by eapply seg_from. }
      apply (seg_trans _ _ _ _ _ s4).
      { by eapply seg_from. }
      apply IH; [done|by eapply is_mono|]. eapply Forall_impl; [exact Hcs|]. intros b. by apply ctx_ok_mono.
Qed.
