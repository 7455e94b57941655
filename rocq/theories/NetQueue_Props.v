(** * C67, C68: the queue behind RabbitMQ *)
From Verif Require Export NetQueue_Proof.
Set Default Proof Using "Type".

(** A codec for the examples: strings (type 3) survive; int64 becomes float64 (type 1), a struct (types above 3) becomes a map (type 2);
    values of type 9 have no JSON text. *)
Fixpoint sample_any (v : gval) : gval :=
  match v with
  | VNil => VNil
  | VInt z => VBase 1 (Z.to_nat z)
  | VBase n x => VBase (if bool_decide (n < 4) then n else 2) x
  | VSlice _ vs => VSlice TAny (map sample_any vs)
  end.
Definition qsample : qcodec :=
  QCodec gval (λ v, match v with VBase 9 _ => None | _ => Some v end) (λ v, Some (sample_any v)).
Lemma qsample_ok : qcodec_ok qsample (λ n, n < 4).
Proof.
  intros m v [= <-]. revert m. fix IH 1. intros [|z|n x|t vs]; simpl; [constructor|by constructor; lia| |].
  - constructor. case_bool_decide; lia.
  - constructor. induction vs as [|v vs IHv]; simpl; constructor; auto.
Qed.

(** ** C67 *)
(** Whatever happens: each message that arrived at the broker is handed to exactly one client, in the order of arrival; and each
    client pops what it was handed in that order.  What arrived was pushed, in the order of the pushes. *)
Theorem C67_messages_are_accounted_for (Q : qcodec) ms :
  accounted Q (rrun Q ms) ∧ r_arrived Q (rrun Q ms) `sublist_of` pushed Q (r_log Q (rrun Q ms)).
Proof. split; [by destruct (rrun_inv Q ms)|apply rrun_sourced]. Qed.

(** Unless a message vanishes on the way to the broker, every acknowledged item arrives. *)
Theorem C67_acknowledged_items_arrive (Q : qcodec) ms :
  (∀ c x, RPush c x Vanishes ∉ ms) →
  acknowledged Q (r_log Q (rrun Q ms)) `sublist_of` r_arrived Q (rrun Q ms).
Proof.
  induction ms as [|m ms IH] using rev_ind; intros Hv; [done|].
  rewrite rrun_app. specialize (IH ltac:(intros c x H; apply (Hv c x), elem_of_app; by left)).
  assert (∀ c x, m ≠ RPush c x Vanishes) as Hm.
  { intros c x ->. apply (Hv c x), elem_of_app. right. by apply elem_of_list_singleton. }
  set (s := rrun Q ms) in *. clearbody s.
  assert (∀ o, (∀ c x, o ≠ RPushed Q c x true) → acknowledged Q (r_log Q s ++ [o]) = acknowledged Q (r_log Q s)) as Ho.
  { intros o Hne. unfold acknowledged. rewrite omap_app. destruct o as [c x []| | | |]; simpl; rewrite ?app_nil_r; try done.
    by destruct (Hne c x). }
  assert (∀ c t d, match receive Q s c t d with
    | Some s' => acknowledged Q (r_log Q s') `sublist_of` r_arrived Q s' | None => True end) as Hrec.
  { intros c t d. unfold receive. destruct (buf Q s c); [case_bool_decide; [done|]|]; simpl; by rewrite Ho. }
  destruct m as [c|c x f|c|c t d|c t|c t|c t|c n]; simpl.
  - by destruct (r_dropped Q s !! c).
  - destruct (qmarshal Q x) as [m|] eqn:Em; [|simpl; by rewrite Ho]. case_bool_decide; [|simpl; by rewrite Ho].
    destruct f; simpl; [|by rewrite Ho|rewrite Ho by done; by apply sublist_inserts_r|by destruct (Hm c x)].
    unfold acknowledged at 1. rewrite omap_app. simpl. rewrite Em. by apply sublist_app.
  - destruct (r_broker Q s); [done|]. by case_bool_decide.
  - destruct (r_wait Q s !! _); [done|]. specialize (Hrec c t d). by destruct (receive Q s c t d).
  - destruct (r_wait Q s !! _) as [d|]; [|done]. specialize (Hrec c t d). by destruct (receive Q s c t d).
  - case_bool_decide; [|done]. destruct (r_wait Q s !! _); [|done]. simpl. by rewrite Ho.
  - done.
  - done.
Qed.
Example C67_acknowledged_items_arrive_nonvacuous :
  let s := rrun qsample [ROpen 1; RPush 1 (VBase 3 7) Arrives; RPush 1 (VBase 3 8) Fails; RPush 1 (VBase 3 9) ArrivesWithError] in
  acknowledged qsample (r_log _ s) = [VBase 3 7] ∧ r_arrived _ s = [VBase 3 7; VBase 3 9].
Proof. by vm_compute. Qed.

(** With one client and no failures the queue is first-in, first-out, and holds whatever was pushed and not popped. *)
Theorem C67_one_client_is_fifo (Q : qcodec) ms c :
  Forall calm_move ms → Forall (only c) ms →
  acknowledged Q (r_log Q (rrun Q ms)) =
  popped Q (r_log Q (rrun Q ms)) ++ buf Q (rrun Q ms) c ++ r_broker Q (rrun Q ms).
Proof. apply fifo. Qed.

(** Pop takes the first message of its own client's buffer at once, even if its context is cancelled; the message is gone even
    if it cannot be copied to the destination.  It gives up only if its context is cancelled while it waits. *)
Theorem C67_pop_takes_the_first (Q : qcodec) ms c t d m rest :
  let s := rrun Q ms in
  buf Q s c = m :: rest → r_wait Q s !! (c, t) = None ∨ r_wait Q s !! (c, t) = Some d →
  let s' := rstep Q s (match r_wait Q s !! (c, t) with None => RPop c t d | Some _ => RRun c t end) in
  r_log Q s' = r_log Q s ++ [RPopped Q c t m (pop_result Q m d)] ∧ buf Q s' c = rest ∧ r_wait Q s' !! (c, t) = None.
Proof.
  intros s Hb Hw. destruct Hw as [Hw|Hw]; rewrite Hw; simpl; rewrite Hw; unfold receive; rewrite Hb; simpl;
    unfold buf; simpl; by rewrite lookup_insert, lookup_delete.
Qed.
Theorem C67_giving_up_needs_cancellation (Q : qcodec) ms c t :
  RPopFailed Q c t ∈ r_log Q (rrun Q ms) → RCancel c t ∈ ms.
Proof.
  assert (∀ ms, ((c, t) ∈ r_dead Q (rrun Q ms) → RCancel c t ∈ ms) ∧
                (RPopFailed Q c t ∈ r_log Q (rrun Q ms) → RCancel c t ∈ ms)) as H; [|apply H].
  clear ms. intros ms. induction ms as [|m ms [IH1 IH2]] using rev_ind.
  { split; [intros H; set_solver|intros H; by apply elem_of_nil in H]. }
  rewrite rrun_app. set (s := rrun Q ms) in *. clearbody s.
  assert (∀ m', m' ∈ ms → m' ∈ ms ++ [m]) as Hmono by (intros; apply elem_of_app; by left).
  assert (∀ o, o ≠ RPopFailed Q c t → RPopFailed Q c t ∈ r_log Q s ++ [o] → RCancel c t ∈ ms ++ [m]) as Hlog.
  { intros o Ho [H|H]%elem_of_app; [auto|]. apply elem_of_list_singleton in H. congruence. }
  assert (∀ c0 t0 d, match receive Q s c0 t0 d with
    | Some s' => r_dead Q s' = r_dead Q s ∧ (RPopFailed Q c t ∈ r_log Q s' → RCancel c t ∈ ms ++ [m]) | None => True end) as Hrec.
  { intros c0 t0 d. unfold receive. destruct (buf Q s c0); [case_bool_decide; [done|]|]; simpl; (split; [done|by apply Hlog]). }
  destruct m as [c0|c0 x f|c0|c0 t0 d|c0 t0|c0 t0|c0 t0|c0 n]; simpl.
  - destruct (r_dropped Q s !! c0); auto.
  - destruct (qmarshal Q x); [|simpl; split; [auto|by apply Hlog]].
    case_bool_decide; [|simpl; split; [auto|by apply Hlog]]. destruct f; simpl; (split; [auto|by apply Hlog]).
  - destruct (r_broker Q s); [auto|]. case_bool_decide; auto.
  - destruct (r_wait Q s !! _); [auto|]. specialize (Hrec c0 t0 d). destruct (receive Q s c0 t0 d); [|simpl; auto].
    destruct Hrec as [-> ?]. auto.
  - destruct (r_wait Q s !! _) as [d|]; [|auto]. specialize (Hrec c0 t0 d). destruct (receive Q s c0 t0 d); [|simpl; auto].
    destruct Hrec as [-> ?]. auto.
  - case_bool_decide as Hd; [|auto]. destruct (r_wait Q s !! _); [|auto]. simpl. split; [auto|].
    intros [H|H]%elem_of_app; [auto|]. apply elem_of_list_singleton in H. injection H as <- <-. auto.
  - split; [|auto]. rewrite elem_of_union, elem_of_singleton. intros [[= <- <-]|H]; [|auto].
    apply elem_of_app. right. by apply elem_of_list_singleton.
  - auto.
Qed.

(** A message handed to a client can only be popped there: until someone pops in that process it stays, whatever other
    processes do. *)
Definition pops_at (c : nat) (m : rmove) : Prop :=
  match m with RPop c' _ _ | RRun c' _ | RClose c' _ => c' = c | _ => False end.
Theorem C67_messages_stay_with_their_client (Q : qcodec) s ms c :
  Forall (λ m, ¬ pops_at c m) ms → buf Q s c `prefix_of` buf Q (fold_left (rstep Q) ms s) c.
Proof.
  revert s. induction ms as [|m ms IH]; intros s H; [done|]. apply Forall_cons in H as [Hm H]. simpl.
  etrans; [|by apply IH]. clear IH H ms.
  assert (∀ c0 t d, c0 ≠ c → match receive Q s c0 t d with Some s' => buf Q s' c = buf Q s c | None => True end) as Hrec.
  { intros c0 t d Hne. unfold receive. destruct (buf Q s c0); [case_bool_decide; done|]. unfold buf. simpl.
    by rewrite lookup_insert_ne. }
  destruct m as [c0|c0 x f|c0|c0 t d|c0 t|c0 t|c0 t|c0 n]; simpl in *.
  - by destruct (r_dropped Q s !! c0).
  - destruct (qmarshal Q x); [|done]. case_bool_decide; [|done]. by destruct f.
  - destruct (r_broker Q s) as [|m rest]; [done|]. case_bool_decide; [|done]. unfold buf. simpl.
    destruct (decide (c0 = c)) as [->|Hne]; [rewrite lookup_insert; by eexists|by rewrite lookup_insert_ne].
  - destruct (r_wait Q s !! _); [done|]. specialize (Hrec c0 t d Hm). destruct (receive Q s c0 t d); [by rewrite Hrec|done].
  - destruct (r_wait Q s !! _) as [d|]; [|done]. specialize (Hrec c0 t d Hm). destruct (receive Q s c0 t d); [by rewrite Hrec|done].
  - case_bool_decide; [|done]. by destruct (r_wait Q s !! _).
  - done.
  - unfold buf. simpl. by rewrite lookup_insert_ne.
Qed.
(** So a pushed item need not reach a waiting Pop: process 1 only pushes, process 2 waits in Pop; RabbitMQ hands the item to
    process 1, which also consumes, and it stays there.  (In one process, or with the in-memory queue, it would be popped: C26.) *)
Theorem C67_waiting_pops_receive_items_refuted :
  ∃ ms, Forall calm_move ms ∧
    let s := rrun qsample ms in
    acknowledged qsample (r_log _ s) = [VBase 3 7] ∧ popped qsample (r_log _ s) = [] ∧
    r_wait _ s !! (2, 0) = Some (DPtr (TBase 3)) ∧ r_broker _ s = [] ∧
    ∀ more, Forall (λ m, ¬ pops_at 1 m) more →
      VBase 3 7 ∈ buf qsample (fold_left (rstep qsample) more s) 1.
Proof.
  exists [ROpen 1; ROpen 2; RPop 2 0 (DPtr (TBase 3)); RPush 1 (VBase 3 7) Arrives; RDeliver 1].
  split; [by repeat constructor|]. split; [done|]. split; [done|]. split; [by vm_compute|]. split; [done|].
  intros more Hmore. destruct (C67_messages_stay_with_their_client qsample (rrun qsample
    [ROpen 1; ROpen 2; RPop 2 0 (DPtr (TBase 3)); RPush 1 (VBase 3 7) Arrives; RDeliver 1]) more 1 Hmore) as [l Hl].
  unfold rrun in *. rewrite Hl. apply elem_of_app. left. apply (elem_of_list_lookup_2 _ 0). by vm_compute.
Qed.

(** Once a client's connection is lost and its buffer is empty, every Pop returns at once with an error and reports
    success, for ever; and so does every Push of an item with a JSON text. *)
Definition lost (Q : qcodec) (s : rstate Q) (c : nat) : Prop :=
  c ∉ r_open Q s ∧ is_Some (r_dropped Q s !! c) ∧ buf Q s c = [].
Lemma lost_step Q s c m : lost Q s c → lost Q (rstep Q s m) c.
Proof.
  intros (H1 & H2 & H3).
  assert (∀ c0 t d, match receive Q s c0 t d with Some s' => lost Q s' c | None => True end) as Hrec.
  { intros c0 t d. unfold receive. destruct (buf Q s c0) as [|m0 rest] eqn:Hb; [case_bool_decide; done|].
    split; [done|]. split; [done|]. unfold buf. simpl. destruct (decide (c0 = c)) as [->|Hne]; [congruence|].
    by rewrite lookup_insert_ne. }
  destruct m as [c0|c0 x f|c0|c0 t d|c0 t|c0 t|c0 t|c0 n]; simpl.
  - destruct (r_dropped Q s !! c0) eqn:Hd; [done|]. split; [|done]. simpl.
    destruct (decide (c0 = c)) as [->|Hne]; [by rewrite Hd in H2; destruct H2|]. set_solver.
  - destruct (qmarshal Q x); [|done]. case_bool_decide; [|done]. by destruct f.
  - destruct (r_broker Q s); [done|]. case_bool_decide; [|done]. split; [done|]. split; [done|]. unfold buf. simpl.
    destruct (decide (c0 = c)) as [->|Hne]; [done|]. by rewrite lookup_insert_ne.
  - destruct (r_wait Q s !! _); [done|]. specialize (Hrec c0 t d). by destruct (receive Q s c0 t d).
  - destruct (r_wait Q s !! _) as [d|]; [|done]. specialize (Hrec c0 t d). by destruct (receive Q s c0 t d).
  - case_bool_decide; [|done]. by destruct (r_wait Q s !! _).
  - done.
  - split; [set_solver|]. split; simpl.
    + destruct (decide (c0 = c)) as [->|Hne]; [rewrite lookup_insert; eauto|by rewrite lookup_insert_ne].
    + unfold buf in *. simpl. destruct (decide (c0 = c)) as [->|Hne]; [rewrite lookup_insert|by rewrite lookup_insert_ne].
      simpl. rewrite H3. by rewrite take_nil.
Qed.
Theorem C67_lost_connections_fail_for_ever (Q : qcodec) s c ms :
  lost Q s c →
  let s' := fold_left (rstep Q) ms s in
  (∀ t d, r_wait Q s' !! (c, t) = None → r_log Q (rstep Q s' (RPop c t d)) = r_log Q s' ++ [RPopClosed Q c t]) ∧
  (∀ t, is_Some (r_wait Q s' !! (c, t)) → r_log Q (rstep Q s' (RRun c t)) = r_log Q s' ++ [RPopClosed Q c t]) ∧
  (∀ x f, is_Some (qmarshal Q x) → r_log Q (rstep Q s' (RPush c x f)) = r_log Q s' ++ [RPushed Q c x false] ∧
          r_broker Q (rstep Q s' (RPush c x f)) = r_broker Q s').
Proof.
  intros H. assert (lost Q (fold_left (rstep Q) ms s) c) as (H1 & H2 & H3).
  { revert s H. induction ms as [|m ms IH]; intros s H; [done|]. simpl. apply IH. by apply lost_step. }
  set (s' := fold_left _ _ _) in *. clearbody s'. split; [|split].
  - intros t d Hw. simpl. rewrite Hw. unfold receive. rewrite H3. by rewrite bool_decide_false.
  - intros t [d Hw]. simpl. rewrite Hw. unfold receive. rewrite H3. by rewrite bool_decide_false.
  - intros x f [m Hm]. simpl. rewrite Hm. by rewrite bool_decide_false.
Qed.

(** Two clients, a lost reply, a connection lost with a message in its buffer *)
Example C67_nonvacuous :
  let ms := [ROpen 1; ROpen 2; RPush 1 (VBase 3 1) Arrives; RPush 1 (VBase 3 2) ArrivesWithError; RPush 2 (VBase 3 3) Vanishes;
             RPush 2 (VBase 3 4) Arrives; RDeliver 2; RPop 2 0 (DPtr (TBase 3)); RPop 2 0 (DPtr (TBase 3)); RDeliver 1; RCancel 2 0;
             RGiveUp 2 0; RClose 1 0; RPop 1 5 (DPtr TAny)] in
  r_log qsample (rrun qsample ms) =
  [RPushed qsample 1 (VBase 3 1) true; RPushed qsample 1 (VBase 3 2) false; RPushed qsample 2 (VBase 3 3) true;
   RPushed qsample 2 (VBase 3 4) true; RPopped qsample 2 0 (VBase 3 1) (COk (VBase 3 1)); RPopFailed qsample 2 0; RPopClosed qsample 1 5] ∧
  r_broker _ (rrun qsample ms) = [VBase 3 4] ∧ dropped _ (rrun qsample ms) 1 = [VBase 3 2] ∧ lost _ (rrun qsample ms) 1 ∧
  let one := [ROpen 1; RPush 1 (VBase 3 1) Arrives; RPush 1 (VBase 3 2) Arrives; RDeliver 1; RPop 1 0 (DPtr TAny); RDeliver 1] in
  Forall calm_move one ∧ Forall (only 1) one ∧ buf _ (rrun qsample one) 1 = [VBase 3 2] ∧
  popped _ (r_log _ (rrun qsample one)) = [VBase 3 1].
Proof.
  split; [by vm_compute|]. split; [by vm_compute|]. split; [by vm_compute|]. split.
  { split; [refine (bool_decide_unpack (¬ _) _); by vm_compute|]. split; [by eexists; vm_compute|by vm_compute]. }
  split; [by repeat constructor|]. split; [by repeat constructor|]. by vm_compute.
Qed.

(** ** C68 *)
(** Only data of the types that JSON decoding produces ever comes out of the queue: bool, float64, string,
    map[string]interface{} and slices.  An int or a struct never does. *)
Theorem C68_only_json_data_is_received (Q : qcodec) json_base m d w :
  qcodec_ok Q json_base → pop_result Q m d = COk w → json_data json_base (erase w).
Proof. apply pop_json. Qed.
Theorem C68_ints_and_structs_are_never_received (Q : qcodec) json_base m n :
  qcodec_ok Q json_base → ¬ json_base n →
  (∀ w, pop_result Q m (DPtr TInt) ≠ COk w) ∧ (∀ w, pop_result Q m (DPtr (TBase n)) ≠ COk w).
Proof.
  intros HQ Hn. unfold pop_result. destruct (decode_any Q m) as [v|] eqn:Hd; [|done]. apply HQ in Hd.
  split; intros w H; simpl in H; destruct Hd as [|n' x Hn'|vs]; try done.
  destruct (decide (n' = n)) as [->|Hne]; [done|]. rewrite bool_decide_false in H; [done|]. by intros [= ->].
Qed.
(** An item whose data JSON keeps is received by a Pop into any variable that can hold it. *)
Theorem C68_surviving_items_are_received (Q : qcodec) x m t :
  survives Q x m → wf x → nil_free x → has_type x t →
  ∃ w, pop_result Q m (DPtr t) = COk w ∧ erase w = erase x.
Proof.
  intros (_ & v & Hv & He) Hw Hn Ht. unfold pop_result. rewrite Hv. simpl. by eapply copy_same_data.
Qed.
(** A string and a slice of strings arrive; an int64 or a struct, popped into a variable of its own type, does not, and is gone. *)
Example C68_nonvacuous :
  survives qsample (VSlice (TBase 3) [VBase 3 1; VBase 3 2]) (VSlice (TBase 3) [VBase 3 1; VBase 3 2]) ∧
  pop_result qsample (VSlice (TBase 3) [VBase 3 1; VBase 3 2]) (DPtr (TSlice (TBase 3))) = COk (VSlice (TBase 3) [VBase 3 1; VBase 3 2]) ∧
  wf (VSlice (TBase 3) [VBase 3 1; VBase 3 2]) ∧ nil_free (VSlice (TBase 3) [VBase 3 1; VBase 3 2]) ∧
  has_type (VSlice (TBase 3) [VBase 3 1; VBase 3 2]) (TSlice (TBase 3)) ∧
  ¬ (λ n, n < 4) 5.
Proof.
  split; [split; [done|]; by eexists|]. split; [done|]. split; [by repeat econstructor|]. split; [done|].
  split; [by repeat econstructor|]. simpl. lia.
Qed.
Theorem C68_every_item_is_received_refuted :
  let s := rrun qsample [ROpen 1; RPush 1 (VInt 5) Arrives; RPush 1 (VBase 5 1) Arrives; RDeliver 1; RDeliver 1;
                         RPop 1 0 (DPtr TInt); RPop 1 0 (DPtr (TBase 5))] in
  r_log _ s = [RPushed qsample 1 (VInt 5) true; RPushed qsample 1 (VBase 5 1) true; RPopped qsample 1 0 (VInt 5) CErr;
               RPopped qsample 1 0 (VBase 5 1) CErr] ∧ buf _ s 1 = [] ∧ r_broker _ s = [].
Proof. by vm_compute. Qed.

Print Assumptions C67_messages_are_accounted_for.
Print Assumptions C67_acknowledged_items_arrive.
Print Assumptions C67_one_client_is_fifo.
Print Assumptions C67_pop_takes_the_first.
Print Assumptions C67_giving_up_needs_cancellation.
Print Assumptions C67_messages_stay_with_their_client.
Print Assumptions C67_waiting_pops_receive_items_refuted.
Print Assumptions C67_lost_connections_fail_for_ever.
Print Assumptions C68_only_json_data_is_received.
Print Assumptions C68_ints_and_structs_are_never_received.
Print Assumptions C68_surviving_items_are_received.
Print Assumptions C68_every_item_is_received_refuted.
