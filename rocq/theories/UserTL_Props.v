(** * Properties of the user timelines *)
From Verif Require Import UserTL_Proof.
From stdpp Require Import list.
Set Default Proof Using "Type".
Open Scope Z_scope.

(** ** C92 *)
(** What is answered was written for that user. *)
Theorem C92_read_sound es w t u a b l x : history es w → (∀ o, called w o → exact_op o) → answered w t (Read u a b) (Ids l) → x ∈ l → ∃ s, called w (Write x u s).
Proof.
  intros Hh Hex Ha Hx. destruct (inv_calls _ (inv_history _ _ Hh) _ _ _ Ha) as [Ho Hr]. destruct (Hr _ Hx) as (p & u' & s & Hu & Hin & Hp).
  pose proof (Hex _ (proj2 (called_ops _ _) Ho)) as [Eu _]. pose proof (Hex _ (proj2 (called_ops _ _) Hin)) as (Ep & _ & _).
  rewrite (json_small u) in Hu by done. rewrite (json_small p) in Hp by done. exists s. apply called_ops. destruct Hp as [-> | ->]; destruct Hu as [-> | ->]; done.
Qed.
(** If the writes for each user are made one after the other, the database has one document of the user with the posts of the acknowledged writes, newest
    first, and possibly those of other writes in their places, whatever fails, is lost, killed or dropped. *)
Theorem C92_stored es w u : run one_writer started es w → ∃ m,
  filter (λ d : Z * list post, d.1 = u) (w_db w) = (if decide (m = []) then [] else [(u, reverse m)]) ∧ acknowledged u w `sublist_of` m ∧ m `sublist_of` tried u w.
Proof.
  intros Hr. destruct (inv2_run _ _ Hr) as [_ Hi]. destruct (i2_match _ Hi u) as (m & Hd & Hm). exists m. split; [done|].
  rewrite <-ws_acknowledged, <-ws_tried. split; [by apply matches_acknowledged|by apply matches_tried].
Qed.
(** If the calls about each user are made one after the other and nothing fails, writes are acknowledged, ... *)
Theorem C92_written es w t p u s r : run calm started es w → answered w t (Write p u s) r → r = Ok.
Proof. intros Hr Ha. destruct (inv3_run _ _ Hr) as [_ Hi]. exact (i3_done _ Hi _ _ _ Ha). Qed.
(** ... and reads answer all posts of the user, oldest first, and fail if there are none. *)
Theorem C92_read_all es w t u a b r : run calm started es w → answered w t (Read u a b) r → 0 ≤ a < b →
  let posts := posts_of u (take t (w_calls w).*1) in (posts ≠ [] → r = Ids posts) ∧ (posts = [] → r = Failed).
Proof.
  intros Hr Ha Hab. destruct (inv3_run _ _ Hr) as [_ Hi]. pose proof (i3_done _ Hi _ _ _ Ha) as ->. simpl. unfold range_bad, ops.
  destruct ((b <=? a) || (a <? 0)) eqn:E; [apply orb_true_iff in E as [E|E]; lia|]. split; intros H; [by rewrite decide_False|by rewrite decide_True].
Qed.
(** A timeline that is dropped from the cache is answered from the database once, newest first; this leaves a list of ids in the cache, ... *)
Lemma run_cons (P : world → event → Prop) w e w1 es w2 : P w e → step e w = Some w1 → run P w1 es w2 → run P w (e :: es) w2.
Proof.
  intros HP Hs Hr. induction Hr as [w1|w1 es w2 e' w3 Hr IH HP' Hs'].
  - apply (run_snoc P w [] w e w1); [apply run_nil|done|done].
  - change (e :: es ++ [e']) with ((e :: es) ++ [e']). eapply run_snoc; eauto.
Qed.
Definition works (w : world) (e : event) : Prop := match e with Start _ => True | Step _ f => f = Fine | _ => False end.
Lemma step_read w db c calls o p p' db' c' : w = World db c (calls ++ [(o, Running p)]) → act p Fine db c = (db', c', p') →
  step (Step (length calls) Fine) w = Some (World db' c' (calls ++ [(o, settle p')])).
Proof.
  intros -> Ha. unfold step. simpl w_calls. rewrite lookup_app_r, Nat.sub_diag by lia. simpl. rewrite Ha. do 2 f_equal.
  rewrite insert_app_r_alt by lia. rewrite Nat.sub_diag. done.
Qed.
Theorem C92_breaks es w u a b : run one_writer started es w → acknowledged u w ≠ [] → w_cache w !! u = None → exact u → exact b → 0 ≤ a < b →
  ∃ m es' w', acknowledged u w `sublist_of` m ∧ m `sublist_of` tried u w ∧ run works w es' w' ∧
  answered w' (length (w_calls w)) (Read u a b) (Ids (take (Z.to_nat b) (reverse m).*1)) ∧ broken w' u.
Proof.
  intros Hr Hack Hc Eu Eb Hab. destruct (C92_stored _ _ u Hr) as (m & Hd & H1 & H2). fold (docs u (w_db w)) in Hd.
  assert (m ≠ []) as Hm by (intros ->; apply sublist_nil_r in H1; done). rewrite decide_False in Hd by done.
  assert ((b <=? a) || (a <? 0) = false) as Hrg by (apply orb_false_iff; split; lia).
  set (new := take (Z.to_nat b) (reverse m).*1). assert (new ≠ []) as Hnew.
  { unfold new. intros H. apply (f_equal length) in H. rewrite take_length, fmap_length, reverse_length in H. simpl in H. destruct m; [done|]. simpl in H. lia. }
  set (n := length (w_calls w)).
  set (rest := ReadPosts new (Ret (Ids new))).
  exists m, [Start (Read u a b); Step n Fine; Step n Fine; Step n Fine; Step n Fine].
  exists (World (w_db w) (<[u := IdList new]> (w_cache w)) (w_calls w ++ [(Read u a b, Done (Ids new))])).
  split; [done|]. split; [done|]. split; [|split].
  - eapply run_cons; [done|reflexivity|]. simpl program. unfold read. rewrite Hrg. simpl settle.
    eapply run_cons; [done| |].
    { eapply (step_read _ _ _ _ _ (look u a b)); [reflexivity|]. simpl. unfold cached. rewrite Hc. simpl.
      replace (a + Z.of_nat 0 <? b) with true by (symmetry; apply Z.ltb_lt; lia). reflexivity. }
    simpl settle. eapply run_cons; [done| |].
    { eapply step_read; [reflexivity|]. simpl. rewrite (json_small u), (json_small b), Hd by done. simpl. reflexivity. }
    match goal with |- context [finish u ?X []] => assert (X = new) as Ef end.
    { unfold new. rewrite fmap_take. generalize (take (Z.to_nat b) (reverse m).*1). intros l. induction l as [|x l IH]; [done|]. rewrite filter_cons, decide_True by apply not_elem_of_nil. by rewrite IH. }
    rewrite Ef. unfold finish. rewrite app_nil_r. destruct new as [|y new'] eqn:En; [done|]. simpl settle.
    eapply run_cons; [done| |].
    { eapply step_read; [reflexivity|]. simpl. reflexivity. }
    simpl settle. eapply run_cons; [done| |apply run_nil].
    exact (step_read _ (w_db w) (<[u := IdList (y :: new')]> (w_cache w)) (w_calls w) (Read u a b) (ReadPosts (y :: new') (Ret (Ids (y :: new')))) (Ret (Ids (y :: new'))) _ _ eq_refl eq_refl).
  - unfold answered, n. simpl. by rewrite lookup_app_r, Nat.sub_diag by lia.
  - exists new. simpl. by rewrite lookup_insert.
Qed.
(** ... with which all later calls about that user fail, until it is dropped. *)
Theorem C92_broken es w u es' w' t o r : history es w → broken w u → ¬ busy w u → run (λ _ e, e ≠ Evict u) w es' w' →
  (length (w_calls w) ≤ t)%nat → answered w' t o r → user o = u → r = Failed ∨ ∃ a b, o = Read u a b ∧ (b ≤ a ∨ a < 0) ∧ r = Ids [].
Proof.
  intros Hh Hb Hnb Hr Ht Ha Hu. pose proof (inv_history _ _ Hh) as Hi.
  assert (doomed w u (length (w_calls w)) ∧ (length (w_calls w) ≤ length (w_calls w))%nat) as Hd.
  { split; [|done]. split; [done|]. intros t' o' th Hl Hu'. rewrite decide_True by (by eapply lookup_lt_Some). intros p ->. apply Hnb. exists t', o', p. done. }
  assert (inv w' ∧ doomed w' u (length (w_calls w)) ∧ (length (w_calls w) ≤ length (w_calls w'))%nat) as (_ & [_ Hd'] & _).
  { destruct Hd. by eapply doomed_run. }
  pose proof (Hd' _ _ _ Ha Hu) as Hx. rewrite decide_False in Hx by lia. destruct o as [p u' s|u' a b]; simpl in Hu; subst u'.
  - destruct r; [done|done|by left].
  - destruct r; [destruct Hx; done| |by left]. right. exists a, b. destruct Hx as [Hx Hl]. split; [done|]. split; [|done]. apply orb_true_iff in Hx as [Hx|Hx]; lia.
Qed.

(** ** What does not hold *)
Fixpoint play (es : list event) (w : world) : option world :=
  match es with [] => Some w | e :: es => match step e w with Some w' => play es w' | None => None end end.
Lemma play_run es w w' : play es w = Some w' → run (λ _ _, True) w es w'.
Proof.
  revert w. induction es as [|e es IH]; simpl; intros w H; [simplify_eq; apply run_nil|]. destruct (step e w) as [w1|] eqn:Hs; [|done]. eapply run_cons; eauto.
Qed.
Definition fines (n t : nat) : list event := replicate n (Step t Fine).
Local Ltac computed := repeat (split; [first [apply play_run; vm_compute; reflexivity | vm_compute; reflexivity]|]); vm_compute; try reflexivity.
(** Neither bound of the part asked for counts, and the newest post is last. *)
Theorem C92_part_refuted : ∃ es w, history es w ∧ answered w 0 (Write 11 1 100) Ok ∧ answered w 1 (Write 12 1 200) Ok ∧ answered w 2 (Read 1 0 1) (Ids [11; 12]) ∧
  answered w 3 (Read 1 1 2) (Ids [11; 12]).
Proof.
  exists ([Start (Write 11 1 100)] ++ fines 4 0 ++ [Start (Write 12 1 200)] ++ fines 4 1 ++ [Start (Read 1 0 1)] ++ fines 2 2 ++ [Start (Read 1 1 2)] ++ fines 2 3).
  eexists. computed.
Qed.
(** After an eviction and one read, a write and a read fail although every backend call works; the failed write is stored. *)
Theorem C92_eviction_refuted : ∃ es w, history es w ∧ (∀ t f, Step t f ∈ es → f = Fine) ∧ answered w 0 (Write 11 1 100) Ok ∧ answered w 1 (Read 1 0 10) (Ids [11]) ∧
  answered w 2 (Read 1 0 10) Failed ∧ answered w 3 (Write 12 1 200) Failed ∧ w_db w = [(1, [(12, 200); (11, 100)])].
Proof.
  exists ([Start (Write 11 1 100)] ++ fines 4 0 ++ [Evict 1; Start (Read 1 0 10)] ++ fines 4 1 ++ [Start (Read 1 0 10); Step 2 Fine; Start (Write 12 1 200)] ++ fines 3 3).
  eexists. split; [apply play_run; vm_compute; reflexivity|]. split; [intros t f H; vm_compute in H; set_solver|]. computed.
Qed.
(** So does a read beside a write, without an eviction. *)
Theorem C92_overlap_refuted : ∃ es w, history es w ∧ answered w 0 (Write 11 1 100) Ok ∧ answered w 1 (Read 1 0 10) (Ids [12; 11]) ∧ answered w 2 (Write 12 1 200) Ok ∧
  answered w 3 (Read 1 0 10) Failed ∧ answered w 4 (Write 13 1 300) Failed.
Proof.
  exists ([Start (Write 11 1 100)] ++ fines 4 0 ++ [Start (Read 1 0 10); Step 1 Fine; Start (Write 12 1 200)] ++ fines 4 2 ++ fines 3 1 ++
    [Start (Read 1 0 10); Step 3 Fine; Start (Write 13 1 300)] ++ fines 3 4). eexists. computed.
Qed.
(** Two first writes at the same time make two documents, of which only one is read; so does a write for which reading a cursor fails. *)
Theorem C92_two_documents_refuted : ∃ es w, history es w ∧ answered w 0 (Write 11 1 100) Ok ∧ answered w 1 (Write 12 1 200) Ok ∧ answered w 2 (Read 1 0 10) (Ids [11]) ∧
  w_db w = [(1, [(11, 100)]); (1, [(12, 200)])].
Proof.
  exists ([Start (Write 11 1 100); Start (Write 12 1 200); Step 0 Fine; Step 1 Fine] ++ fines 3 0 ++ fines 3 1 ++ [Evict 1; Start (Read 1 0 10)] ++ fines 4 2). eexists. computed.
Qed.
Theorem C92_cursor_refuted : ∃ es w, history es w ∧ answered w 0 (Write 11 1 100) Ok ∧ answered w 1 (Write 12 1 200) Ok ∧ answered w 2 (Read 1 0 10) (Ids [11]).
Proof.
  exists ([Start (Write 11 1 100)] ++ fines 4 0 ++ [Start (Write 12 1 200); Step 1 Lost] ++ fines 3 1 ++ [Evict 1; Start (Read 1 0 10)] ++ fines 4 2). eexists. computed.
Qed.
(** A write that is made again after it failed is stored twice. *)
Theorem C92_retry_refuted : ∃ es w, history es w ∧ answered w 0 (Write 11 1 100) Failed ∧ answered w 1 (Write 11 1 100) Ok ∧ answered w 2 (Read 1 0 10) (Ids [11; 11]).
Proof.
  exists ([Start (Write 11 1 100); Step 0 Fine; Step 0 Lost; Start (Write 11 1 100)] ++ fines 4 1 ++ [Evict 1; Start (Read 1 0 10)] ++ fines 4 2). eexists. computed.
Qed.
(** Large ids are stored as others, so a read answers a post that was never written, and breaks the timeline. *)
Theorem C92_large_refuted : ∃ es w, history es w ∧ answered w 0 (Write 11 1 100) Ok ∧ answered w 1 (Write (2 ^ 53 + 1) 1 200) Ok ∧
  answered w 2 (Read 1 0 10) (Ids [9007199254740992; 11; 9007199254740993]) ∧ answered w 3 (Read 1 0 10) Failed.
Proof.
  exists ([Start (Write 11 1 100)] ++ fines 4 0 ++ [Start (Write (2 ^ 53 + 1) 1 200)] ++ fines 4 1 ++ [Start (Read 1 0 10)] ++ fines 4 2 ++ [Start (Read 1 0 10); Step 3 Fine]). eexists. computed.
Qed.

(** ** The hypotheses can be met *)
Definition busy_b (w : world) (u : Z) : bool := existsb (λ c : op * thread, match c.2 with Running _ => bool_decide (user c.1 = u) | _ => false end) (w_calls w).
Definition exact_b (o : op) : bool := match o with Write p u s => (Z.abs p <=? 2 ^ 53) && (Z.abs u <=? 2 ^ 53) && (Z.abs s <=? 2 ^ 53) | Read u a b => (Z.abs u <=? 2 ^ 53) && (Z.abs b <=? 2 ^ 53) end.
Lemma exact_b_ok o : exact_b o = true → exact_op o.
Proof. destruct o; simpl; unfold exact; rewrite ?andb_true_iff, ?Z.leb_le; tauto. Qed.
Lemma busy_b_ok w u : busy_b w u = false → ¬ busy w u.
Proof.
  intros H (t & o & p & Hl & Hu). unfold busy_b in H. apply not_true_iff_false in H. apply H. apply existsb_exists. exists (o, Running p).
  split; [apply elem_of_list_In; by eapply elem_of_list_lookup_2|]. simpl. by apply bool_decide_eq_true.
Qed.
Definition calm_b (w : world) (e : event) : bool :=
  match e with Start o => exact_b o && negb (busy_b w (user o)) | Step _ f => fine f | _ => false end.
Definition writer_b (w : world) (e : event) : bool :=
  match e with Start o => exact_b o && negb (busy_b w (user o)) | Step _ Lost => false | _ => true end.
Fixpoint play_b (P : world → event → bool) (es : list event) (w : world) : option world :=
  match es with [] => Some w | e :: es => if P w e then match step e w with Some w' => play_b P es w' | None => None end else None end.
Lemma play_b_run P (Q : world → event → Prop) es w w' : (∀ w e, P w e = true → Q w e) → play_b P es w = Some w' → run Q w es w'.
Proof.
  intros HPQ. revert w. induction es as [|e es IH]; simpl; intros w H; [simplify_eq; apply run_nil|]. destruct (P w e) eqn:HP; [|done].
  destruct (step e w) as [w1|] eqn:Hs; [|done]. eapply run_cons; eauto.
Qed.
Lemma calm_b_ok w e : calm_b w e = true → calm w e.
Proof.
  destruct e as [o|t f|t|u]; simpl; [|by destruct f|done|done]. intros H. apply andb_true_iff in H as [H1 H2]. apply negb_true_iff in H2.
  split; [by apply exact_b_ok|by apply busy_b_ok].
Qed.
Lemma writer_b_ok w e : writer_b w e = true → one_writer w e.
Proof.
  destruct e as [o|t f|t|u]; simpl; [|by destruct f|done|done]. intros H. apply andb_true_iff in H as [H1 H2]. apply negb_true_iff in H2.
  split; [by apply exact_b_ok|]. intros _ (t & o' & p & Hl & Hu & _). apply (busy_b_ok _ _ H2). exists t, o', p. done.
Qed.
(** Calls about two users interleave *)
Example C92_calm_nonvacuous : ∃ es w, run calm started es w ∧ answered w 0 (Write 11 1 100) Ok ∧ answered w 1 (Write 21 2 150) Ok ∧ answered w 3 (Read 1 0 10) (Ids [11; 12]) ∧
  answered w 4 (Read 3 0 10) Failed.
Proof.
  exists ([Start (Write 11 1 100); Start (Write 21 2 150)] ++ fines 2 0 ++ fines 3 1 ++ fines 2 0 ++ [Start (Write 12 1 200); Step 1 Fine] ++ fines 4 2 ++
    [Start (Read 1 0 10); Start (Read 3 0 10); Step 4 Fine] ++ fines 3 3 ++ fines 1 4).
  eexists. split; [apply (play_b_run calm_b); [apply calm_b_ok|vm_compute; reflexivity]|]. computed.
Qed.
(** One write is killed, one refused by the cache, and the cache forgets the timeline; then C92_breaks and C92_broken apply. *)
Example C92_stored_nonvacuous : ∃ es w, run one_writer started es w ∧ acknowledged 1 w = [(11, 100); (14, 400)] ∧ tried 1 w = [(11, 100); (12, 200); (13, 300); (14, 400)] ∧
  w_db w = [(1, [(14, 400); (13, 300); (11, 100)])] ∧ w_cache w !! 1 = None.
Proof.
  exists ([Start (Write 11 1 100)] ++ fines 4 0 ++ [Start (Write 12 1 200); Step 1 Fine; Kill 1; Start (Write 13 1 300)] ++ fines 2 2 ++ [Step 2 Refused; Start (Write 14 1 400)] ++ fines 4 3 ++ [Evict 1]).
  eexists. split; [apply (play_b_run writer_b); [apply writer_b_ok|vm_compute; reflexivity]|]. computed.
Qed.
Example C92_broken_nonvacuous : ∃ es w es' w', history es w ∧ broken w 1 ∧ ¬ busy w 1 ∧ run (λ _ e, e ≠ Evict 1) w es' w' ∧ length (w_calls w) = 2%nat ∧ answered w' 2 (Write 12 1 200) Failed ∧
  answered w' 3 (Read 1 5 5) (Ids []) ∧ (∀ o, called w' o → exact_op o) ∧ answered w' 1 (Read 1 0 10) (Ids [11]).
Proof.
  exists ([Start (Write 11 1 100)] ++ fines 4 0 ++ [Evict 1; Start (Read 1 0 10)] ++ fines 4 1). eexists.
  exists ([Start (Write 12 1 200); Start (Read 1 5 5)] ++ fines 3 2). eexists.
  split; [apply play_run; vm_compute; reflexivity|]. split; [exists [11]; vm_compute; reflexivity|]. split; [apply busy_b_ok; vm_compute; reflexivity|].
  split; [apply (play_b_run (λ _ e, match e with Evict _ => false | _ => true end)); [by intros ? []|vm_compute; reflexivity]|].
  split; [vm_compute; reflexivity|]. split; [vm_compute; reflexivity|]. split; [vm_compute; reflexivity|]. split; [|vm_compute; reflexivity].
  intros o (t & th & H). apply exact_b_ok. do 4 (destruct t as [|t]; [simpl in H; by simplify_eq|]). done.
Qed.
Print Assumptions C92_read_sound.
Print Assumptions C92_stored.
Print Assumptions C92_written.
Print Assumptions C92_read_all.
Print Assumptions C92_breaks.
Print Assumptions C92_broken.
Print Assumptions C92_part_refuted.
Print Assumptions C92_eviction_refuted.
Print Assumptions C92_overlap_refuted.
Print Assumptions C92_two_documents_refuted.
Print Assumptions C92_cursor_refuted.
Print Assumptions C92_retry_refuted.
Print Assumptions C92_large_refuted.
