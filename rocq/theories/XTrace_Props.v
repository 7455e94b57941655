(** * C72: X-Trace instrumentation yields one connected trace per request *)
From Verif Require Import XTrace_Proof.
Set Default Proof Using "Type".
Open Scope string_scope. Open Scope list_scope.

Lemma trace_ok L h n : well_handler h →
  ∃ root, trace L h n !! 0 = Some root ∧ e_parents root = [] ∧
    map label (trace L h n) = when (start_reports L) [([], KTask)] ++ reported [] h ∧
    NoDup (map e_id (trace L h n)) ∧
    Forall (λ e, e_task e = Some n ∧ (e = root ∨ leads (trace L h n) (e_id root) (e_id e)) ∧ linked (trace L h n) e) (trace L h n).
Proof.
  intros Hw. unfold trace.
  set (s1 := Xst (S n) []).
  (* the start event *)
  assert (∃ b0 s0 pre, start_task L [] (Xst n []) = (b0, s0) ∧ b_task b0 = Some n ∧ x_events s0 = pre ∧
    (if start_reports L then pre = [Event (S n) (Some n) [] [] KTask] ∧ b_last b0 = [S n] ∧ x_next s0 = S (S n)
     else pre = [] ∧ b_last b0 = [] ∧ x_next s0 = S n)) as (b0 & s0 & pre & E0 & Ht & Hp & Hcase).
  { unfold start_task. destruct (start_reports L); eexists _, _, _; (split; [done|]); done. }
  assert (serve L [] h no_bag (Xst n []) = serve L [] h b0 s0) as ->.
  { destruct h as [body err]. cbn [serve no_bag b_task]. rewrite Ht. rewrite E0. done. }
  rewrite (serve_after _ _ _ _ _ n) by done. rewrite (xlog_task _ _ _ _ _ n) by done.
  destruct (report [] KStart b0 s0) as [b2 s2] eqn:E2.
  unfold report in E2. rewrite Ht in E2. injection E2 as <- <-.
  set (e := Event (x_next s0) (Some n) (b_last b0) [] KStart).
  set (s2 := Xst (S (x_next s0)) (x_events s0 ++ [e])).
  assert (is (x_events s2) [] KStart (x_next s0)) as I2.
  { exists e. simpl. split; [apply elem_of_app; right; by left|done]. }
  destruct (after L [] h (Bag (Some n) [x_next s0]) s2) as [r s3] eqn:E3.
  destruct (all_ok h L [] n (x_next s0) s2 r s3 Hw I2 E3) as [(new & En & La & Ii & _ & F) _].
  cbn [snd]. rewrite En in *. cbn [x_events s2] in *. rewrite Hp in *.
  assert (reported [] h = [([], KStart)] ++ tail (reported [] h)) as -> by (by destruct h).
  destruct (start_reports L); destruct Hcase as (-> & Hb & Hn).
  - set (e0 := Event (S n) (Some n) [] [] KTask) in *. exists e0. cbn [app] in *. split; [done|]. split; [done|]. split.
    { simpl. by rewrite La. }
    split.
    { simpl. rewrite Ii. unfold s2. cbn [x_next]. rewrite Hn. change (S n :: S (S n) :: seq (S (S (S n))) (length new)) with (seq (S n) (2 + length new)).
      apply NoDup_ListNoDup, seq_NoDup. }
    assert (leads (e0 :: e :: new) (e_id e0) (e_id e)) as Hl.
    { apply tc_once. exists e. split; [right; by left|]. split; [done|]. simpl. rewrite Hb. by left. }
    apply Forall_cons. split; [split; [done|]; split; [by left|done]|].
    apply Forall_cons. split; [split; [done|]; split; [by right|by left]|].
    eapply Forall_impl; [exact F|]. intros e' (H1 & H2 & H3). split; [done|]. split; [|done]. right.
    eapply tc_transitive; [exact Hl|exact H2].
  - exists e. cbn [app] in *. split; [done|]. split; [done|]. split; [simpl; by rewrite La|]. split.
    { simpl. rewrite Ii. unfold s2. cbn [x_next]. rewrite Hn. change (S n :: seq (S (S n)) (length new)) with (seq (S n) (1 + length new)).
      apply NoDup_ListNoDup, seq_NoDup. }
    apply Forall_cons. split; [split; [done|]; split; [by left|by left]|].
    eapply Forall_impl; [exact F|]. intros e' (H1 & H2 & H3). split; [done|]. split; [|done]. by right.
Qed.

(** Everything done for a request is reported: the start and end of every handler and of every call, failures, and the handlers'
    own log statements, each once. *)
Theorem C72_everything_is_reported L h n : well_handler h →
  map label (trace L h n) = when (start_reports L) [([], KTask)] ++ reported [] h.
Proof. intros Hw. by destruct (trace_ok L h n Hw) as (r & _ & _ & H & _). Qed.

Lemma reported_paths :
  (∀ h p q k, (q, k) ∈ reported p h →
     (q = p ∧ (∀ g, k ≠ KClientStart ∧ k ≠ KClientError ∧ k ≠ KClientEnd g ∧ k ≠ KTask)) ∨ ∃ m r, q = p ++ m :: r) ∧
  (∀ b p n q k, (q, k) ∈ reported_body p n b →
     (q = p ∧ ∃ m x, n ≤ m ∧ k = KLog m x) ∨ ∃ m r, n ≤ m ∧ q = p ++ m :: r).
Proof.
  assert (∀ h p q k, (q, k) ∈ reported p h →
     (q = p ∧ (∀ g, k ≠ KClientStart ∧ k ≠ KClientError ∧ k ≠ KClientEnd g ∧ k ≠ KTask)) ∨ ∃ m r, q = p ++ m :: r) as HA.
  { apply (handler_mut (λ h, ∀ p q k, (q, k) ∈ reported p h →
       (q = p ∧ (∀ g, k ≠ KClientStart ∧ k ≠ KClientError ∧ k ≠ KClientEnd g ∧ k ≠ KTask)) ∨ ∃ m r, q = p ++ m :: r)
      (λ b, ∀ p n q k, (q, k) ∈ reported_body p n b →
       (q = p ∧ ∃ m x, n ≤ m ∧ k = KLog m x) ∨ ∃ m r, n ≤ m ∧ q = p ++ m :: r)).
    - intros body IH err p q k. cbn [reported]. rewrite !elem_of_app. intros [H|[H|[H|H]]].
      + apply elem_of_list_singleton in H as [= -> ->]. left. done.
      + destruct (IH _ _ _ _ H) as [[-> (m & x & _ & ->)]|(m & r & _ & ->)]; [left; done|right; eauto].
      + destruct err; [|by apply elem_of_nil in H]. apply elem_of_list_singleton in H as [= -> ->]. left. done.
      + apply elem_of_list_singleton in H as [= -> ->]. left. done.
    - intros p n q k H. by apply elem_of_nil in H.
    - intros i msg rest IH p n q k. cbn [reported_body]. rewrite elem_of_app. intros [H|H].
      + apply elem_of_list_singleton in H as [= -> ->]. left. split; [done|]. exists n, msg. split; [lia|done].
      + destruct (IH _ _ _ _ H) as [[-> (m & x & ? & ->)]|(m & r & ? & ->)].
        * left. split; [done|]. exists m, x. split; [lia|done].
        * right. exists m, r. split; [lia|done].
    - intros i f h IHh rest IH p n q k. cbn [reported_body]. rewrite !elem_of_app. intros [H|[H|[H|H]]].
      + apply elem_of_list_singleton in H as [= -> ->]. right. exists n, []. done.
      + right. assert ((q, k) ∈ reported (p ++ [n]) h) as H' by (destruct f; try done; by apply elem_of_nil in H).
        destruct (IHh _ _ _ H') as [[-> _]|(m & r & ->)]; [by exists n, []|]. exists n, (m :: r). by rewrite <- app_assoc.
      + right. assert (q = p ++ [n]) as ->; [|by exists n, []].
        destruct f, h as [bd e]; [destruct e|..]; cbn [when app] in H; set_solver.
      + destruct (IH _ _ _ _ H) as [[-> (m & x & ? & ->)]|(m & r & ? & ->)].
        * left. split; [done|]. exists m, x. split; [lia|done].
        * right. exists m, r. split; [lia|done]. }
  split; [done|].
  intros b. induction b as [|i msg rest IH|i f h rest IH]; intros p n q k.
  - intros H. by apply elem_of_nil in H.
  - cbn [reported_body]. rewrite elem_of_app. intros [H|H].
    + apply elem_of_list_singleton in H as [= -> ->]. left. split; [done|]. exists n, msg. split; [lia|done].
    + destruct (IH _ _ _ _ H) as [[-> (m & x & ? & ->)]|(m & r & ? & ->)].
      * left. split; [done|]. exists m, x. split; [lia|done].
      * right. exists m, r. split; [lia|done].
  - cbn [reported_body]. rewrite !elem_of_app. intros [H|[H|[H|H]]].
    + apply elem_of_list_singleton in H as [= -> ->]. right. exists n, []. done.
    + right. assert ((q, k) ∈ reported (p ++ [n]) h) as H' by (destruct f; try done; by apply elem_of_nil in H).
      destruct (HA _ _ _ _ H') as [[-> _]|(m & r & ->)]; [by exists n, []|]. exists n, (m :: r). by rewrite <- app_assoc.
    + right. assert (q = p ++ [n]) as ->; [|by exists n, []].
      destruct f, h as [bd e]; [destruct e|..]; cbn [when app] in H; set_solver.
    + destruct (IH _ _ _ _ H) as [[-> (m & x & ? & ->)]|(m & r & ? & ->)].
      * left. split; [done|]. exists m, x. split; [lia|done].
      * right. exists m, r. split; [lia|done].
Qed.
Lemma path_grow (p : path) m r : p ≠ p ++ m :: r.
Proof. intros H. apply (f_equal length) in H. rewrite app_length in H. simpl in H. lia. Qed.
Lemma reported_once h p : NoDup (reported p h).
Proof.
  revert h p. destruct reported_paths as [HP HB].
  apply (handler_mut (λ h, ∀ p, NoDup (reported p h)) (λ b, ∀ p n, NoDup (reported_body p n b))).
  - intros body IH err p. cbn [reported]. apply NoDup_app. split; [apply NoDup_singleton|]. split.
    + intros x ->%elem_of_list_singleton. rewrite !elem_of_app. intros [H|[H|H]].
      * destruct (HB _ _ _ _ _ H) as [[_ (m & x & _ & E)]|(m & r & _ & E)]; [done|by apply path_grow in E].
      * destruct err; set_solver.
      * set_solver.
    + apply NoDup_app. split; [apply IH|]. split.
      * intros [q k] H. destruct (HB _ _ _ _ _ H) as [[-> (m & x & _ & ->)]|(m & r & _ & ->)].
        -- destruct err; cbn [when]; set_solver.
        -- assert (p ++ m :: r ≠ p) by (intros E; by apply (path_grow p m r)). destruct err; cbn [when]; set_solver.
      * destruct err; cbn [when app]; [|apply NoDup_singleton].
        apply NoDup_cons. split; [set_solver|apply NoDup_singleton].
  - intros p n. constructor.
  - intros i msg rest IH p n. cbn [reported_body app]. apply NoDup_cons. split; [|apply IH].
    intros H. destruct (HB _ _ _ _ _ H) as [[_ (m & x & Hm & [= -> _])]|(m & r & _ & E)]; [lia|by apply path_grow in E].
  - intros i f h IHh rest IH p n. cbn [reported_body].
    set (q := p ++ [n]). set (A := match f with RequestLost => [] | _ => reported q h end).
    set (C := match f, h with Arrives, Handler _ err => _ | _, _ => _ end).
    assert (∀ y k, (y, k) ∈ A → (y = q ∧ (∀ g, k ≠ KClientStart ∧ k ≠ KClientError ∧ k ≠ KClientEnd g ∧ k ≠ KTask)) ∨ ∃ m r, y = q ++ m :: r) as HA.
    { intros y k H. apply (HP h). unfold A in H. destruct f; try done. by apply elem_of_nil in H. }
    assert (∀ y k, (y, k) ∈ C → y = q ∧ (k = KClientError ∨ ∃ g, k = KClientEnd g)) as HC.
    { intros y k H. unfold C in H. destruct f, h as [bd e]; [destruct e|..]; cbn [when app] in H; set_solver. }
    assert (∀ y k, (y, k) ∈ reported_body p (S n) rest → y ≠ q ∧ ∀ m r, y ≠ q ++ m :: r) as HR.
    { intros y k H. destruct (HB _ _ _ _ _ H) as [[-> _]|(m & r & Hm & ->)]; unfold q.
      - split; [intros E; by apply path_grow in E|]. intros m r E. rewrite <- app_assoc in E. by apply path_grow in E.
      - split; [intros E; apply app_inv_head in E; injection E; lia|].
        intros m' r' E. rewrite <- app_assoc in E. apply app_inv_head in E. injection E. lia. }
    cbn [app]. apply NoDup_cons. split.
    + rewrite !elem_of_app. intros [H|[H|H]].
      * destruct (HA _ _ H) as [[_ Hk]|(m & r & E)]; [by destruct (Hk true)|by apply path_grow in E].
      * destruct (HC _ _ H) as [_ [?|[g ?]]]; done.
      * by destruct (HR _ _ H).
    + apply NoDup_app. split; [unfold A; destruct f; [apply IHh|apply IHh|constructor]|]. split.
      * intros [y k] H. rewrite elem_of_app. intros [H'|H'].
        -- destruct (HC _ _ H') as [-> Hk']. destruct (HA _ _ H) as [[_ Hk]|(m & r & E)]; [|by apply path_grow in E].
           destruct Hk' as [->|[g ->]]; [by destruct (Hk true) as (? & ? & _)|by destruct (Hk g) as (? & ? & ? & _)].
        -- destruct (HR _ _ H') as [H1 H2]. destruct (HA _ _ H) as [[-> _]|(m & r & ->)]; [done|by eapply H2].
      * apply NoDup_app. split.
        -- unfold C. destruct f, h as [bd e]; [destruct e|..]; cbn [when app];
             rewrite ?NoDup_cons; split_and?; try apply NoDup_nil; set_solver.
        -- split; [|apply IH]. intros [y k] H H'. destruct (HC _ _ H) as [-> _]. by destruct (HR _ _ H').
Qed.
Theorem C72_each_once L h n : well_handler h → NoDup (map label (trace L h n)) ∧ NoDup (map e_id (trace L h n)).
Proof.
  intros Hw. destruct (trace_ok L h n Hw) as (r & _ & _ & H & Hi & _). split; [|done]. rewrite H.
  apply NoDup_app. split; [destruct (start_reports L); [apply NoDup_singleton|constructor]|]. split; [|apply reported_once].
  intros x Hx Hr. destruct (start_reports L); [|by apply elem_of_nil in Hx]. apply elem_of_list_singleton in Hx as ->.
  destruct (proj1 reported_paths _ _ _ _ Hr) as [[_ Hk]|(m & r' & E)]; [by destruct (Hk true) as (_ & _ & _ & ?)|done].
Qed.

(** All of it belongs to one task, which no earlier request has, and comes after the same first event. *)
Theorem C72_one_connected_trace L h n : well_handler h →
  ∃ root, trace L h n !! 0 = Some root ∧ e_parents root = [] ∧
    ∀ e, e ∈ trace L h n → e_task e = Some n ∧ (e = root ∨ leads (trace L h n) (e_id root) (e_id e)).
Proof.
  intros Hw. destruct (trace_ok L h n Hw) as (r & H1 & H2 & _ & _ & F). exists r. split_and!; [done..|].
  intros e He. rewrite Forall_forall in F. by destruct (F e He) as (? & ? & _).
Qed.

(** Events of a handler come after its start, those of a call after the client's call, and so on: see [linked]. *)
Theorem C72_events_are_linked L h n e : well_handler h → e ∈ trace L h n → linked (trace L h n) e.
Proof.
  intros Hw He. destruct (trace_ok L h n Hw) as (r & _ & _ & _ & _ & F). rewrite Forall_forall in F. by destruct (F e He) as (_ & _ & ?).
Qed.

(** A completed call is a chain: the client's start, the server's start and end, the client's end. *)
Theorem C72_a_call_is_a_chain L h n q d : well_handler h → is (trace L h n) q (KClientEnd true) d →
  ∃ a b c, is (trace L h n) q KClientStart a ∧ is (trace L h n) q KStart b ∧ is (trace L h n) q KEnd c ∧
    leads (trace L h n) a b ∧ leads (trace L h n) b c ∧ leads (trace L h n) c d.
Proof.
  intros Hw (e & He & <- & Hk & <-). pose proof (C72_events_are_linked _ _ _ _ Hw He) as HL.
  unfold linked in HL. rewrite Hk in HL. destruct HL as [(a & Ha & Had) Hg]. destruct (Hg eq_refl) as (c & Hc & Hcd).
  pose proof Ha as (ea & Hea & Hpa & Hka & Hia). pose proof (C72_events_are_linked _ _ _ _ Hw Hea) as HLa.
  unfold linked in HLa. rewrite Hka in HLa. destruct HLa as (p & m & _ & Hq & _ & _). rewrite Hpa in Hq.
  pose proof Hc as (ec & Hec & Hpc & Hkc & Hic). pose proof (C72_events_are_linked _ _ _ _ Hw Hec) as HLc.
  unfold linked in HLc. rewrite Hkc in HLc. destruct HLc as (b & Hb & Hbc). rewrite Hpc, Hic in *.
  pose proof Hb as (eb & Heb & Hpb & Hkb & Hib). pose proof (C72_events_are_linked _ _ _ _ Hw Heb) as HLb.
  unfold linked in HLb. rewrite Hkb in HLb. destruct HLb as [E|(a' & Ha' & Hpar)].
  { rewrite Hpb, Hq in E. by destruct p. }
  exists a', b, c. rewrite Hpb in Ha'. split_and!; try done.
  apply tc_once. exists eb. split; [done|]. split; [done|]. rewrite Hpar. by left.
Qed.

(** ** What the trace does not show *)
Lemma leads_closed (l : list event) (S : list nat) i j :
  Forall (λ e, e_id e ∈ S → Forall (λ x, x ∈ S) (e_parents e)) l → leads l i j → j ∈ S → i ∈ S.
Proof.
  intros HS H. unfold leads in H. induction H as [i j (e & He & <- & Hi)|i j k (e & He & <- & Hi) _ IH]; intros Hj.
  - rewrite Forall_forall in HS. specialize (HS e He Hj). rewrite Forall_forall in HS. by apply HS.
  - specialize (IH Hj). rewrite Forall_forall in HS. specialize (HS e He IH). rewrite Forall_forall in HS. by apply HS.
Qed.
Lemma is_nth l k e : l !! k = Some e → is l (e_path e) (e_kind e) (e_id e).
Proof. intros H. exists e. split; [by eapply elem_of_list_lookup_2|done]. Qed.
Definition quiet : handler := Handler Done false.
(** A handler that makes two calls, one after the other *)
Definition twice : handler := Handler (Call 0 Arrives quiet (Call 0 Arrives quiet Done)) false.
Example twice_trace : map (λ e, (e_id e, e_parents e, label e)) (trace (Lib false false) twice 0) =
  [(1, [], ([], KStart));
   (2, [1], ([0], KClientStart)); (3, [2], ([0], KStart)); (4, [3], ([0], KEnd)); (5, [2; 4], ([0], KClientEnd true));
   (6, [1], ([1], KClientStart)); (7, [6], ([1], KStart)); (8, [7], ([1], KEnd)); (9, [6; 8], ([1], KClientEnd true));
   (10, [1], ([], KEnd))].
Proof. done. Qed.
(** The wrapper does not hand its new context to the caller, so the second call does not come after the first ... *)
Theorem C72_calls_in_a_row_are_ordered_refuted :
  ¬ ∀ L h n p i j a b, well_handler h → i < j →
    is (trace L h n) (p ++ [i]) (KClientEnd true) a → is (trace L h n) (p ++ [j]) KClientStart b → leads (trace L h n) a b.
Proof.
  intros H. specialize (H (Lib false false) twice 0 [] 0 1 5 6).
  assert (leads (trace (Lib false false) twice 0) 5 6) as Hl.
  { apply H; [simpl; lia|lia|..].
    - exact (is_nth (trace (Lib false false) twice 0) 4 _ eq_refl).
    - exact (is_nth (trace (Lib false false) twice 0) 5 _ eq_refl). }
  apply (leads_closed _ [1; 6]) in Hl; [|apply (bool_decide_unpack _); by vm_compute|set_solver]. set_solver.
Qed.
(** ... and a handler's end does not come after the calls it made. *)
Theorem C72_end_comes_after_the_calls_refuted :
  ¬ ∀ L h n p i a b, well_handler h →
    is (trace L h n) (p ++ [i]) (KClientEnd true) a → is (trace L h n) p KEnd b → leads (trace L h n) a b.
Proof.
  intros H. specialize (H (Lib false false) twice 0 [] 0 5 10).
  assert (leads (trace (Lib false false) twice 0) 5 10) as Hl.
  { apply H; [simpl; lia|..].
    - exact (is_nth (trace (Lib false false) twice 0) 4 _ eq_refl).
    - exact (is_nth (trace (Lib false false) twice 0) 9 _ eq_refl). }
  apply (leads_closed _ [1; 10]) in Hl; [|apply (bool_decide_unpack _); by vm_compute|set_solver]. set_solver.
Qed.

(** A request with log statements, a failing call, lost messages and nesting *)
Example C72_nonvacuous :
  well_handler (Handler (Log 0 "a" (Call 1 Arrives (Handler (Log 0 "b" (Call 1 ResponseLost quiet Done)) true) (Call 0 RequestLost quiet Done))) true) ∧
  is (trace (Lib true true) twice 7) [0] (KClientEnd true) 13.
Proof.
  split; [simpl; lia|]. exact (is_nth (trace (Lib true true) twice 7) 5 _ eq_refl).
Qed.

Print Assumptions C72_everything_is_reported.
Print Assumptions C72_each_once.
Print Assumptions C72_one_connected_trace.
Print Assumptions C72_events_are_linked.
Print Assumptions C72_a_call_is_a_chain.
Print Assumptions C72_calls_in_a_row_are_ordered_refuted.
Print Assumptions C72_end_comes_after_the_calls_refuted.
