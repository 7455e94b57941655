(** * C88: home timelines of the social network *)
From Verif Require Import HomeTL_Model HomeTL_Spec HomeTL_Proof.
From stdpp Require Import list.
Open Scope Z_scope.

(** Whatever fails and whatever runs at the same time: the timeline of a user is made of the posts of different writes, each for a post of someone
    whom the user followed or that mentions the user: no post appears by itself, and none more than once for one write. *)
Theorem C88_nothing_invented es w x : history es w → ∃ l, NoDup l ∧ Forall2 (posted w) l (timeline w x) ∧ ∀ t, t ∈ l → for_user es w t x.
Proof. intros Hr. destruct (inv_run _ _ _ Hr) as (H & _). destruct (H x) as (l & ? & ? & Hl). exists l. split; [done|]. split; [done|]. intros t Ht. by apply Hl. Qed.
Print Assumptions C88_nothing_invented.

(** If the cache forgets nothing and no call writes a timeline while another is between reading and writing it: each acknowledged write put its post,
    once, on the timeline of each follower and of each mentioned user. *)
Theorem C88_delivered es w x :
  run tidy started es w → ∃ l, NoDup l ∧ Forall2 (posted w) l (timeline w x) ∧ (∀ t, t ∈ l → for_user es w t x) ∧
    ∀ t o, w_calls w !! t = Some (o, Done Ok) → for_user es w t x → t ∈ l.
Proof.
  intros Hr. destruct (inv2_run _ _ Hr) as [_ [L HL]]. destruct (HL x) as ((? & ? & Hl) & _ & Hf). exists (L x).
  split; [done|]. split; [done|]. split; [intros t Ht; by apply Hl|]. intros t o Ht Hu. destruct (Hf t o _ Hu Ht) as [(? & ? & _)|?]; done.
Qed.
Print Assumptions C88_delivered.

(** Posts are appended: a timeline only grows, at its end. *)
Theorem C88_appended es w es' w' x : run tidy started es w → run tidy w es' w' → timeline w x `prefix_of` timeline w' x.
Proof. apply timelines_grow. Qed.
Print Assumptions C88_appended.

(** A write whose backends work is acknowledged when it ends. *)
Theorem C88_write_works P pid uid ts ms es w w1 es' w2 r :
  history es w → step (Start (Write pid uid ts ms)) w = Some w1 → run P w1 es' w2 → (∀ w e, P w e → works_for (length (w_calls w1) - 1) e) →
  w_calls w2 !! length (w_calls w) = Some (Write pid uid ts ms, Done r) → r = Ok.
Proof.
  intros Hr Hs Hr' HP Hd. assert (length (w_calls w1) - 1 = length (w_calls w))%nat as El.
  { simpl in Hs. injection Hs as <-. simpl. rewrite app_length. simpl. lia. }
  rewrite El in HP. set (t := length (w_calls w)) in *.
  assert (history (es ++ [Start (Write pid uid ts ms)]) w1) as Hr1 by by econstructor.
  assert (∃ th, w_calls w1 !! t = Some (Write pid uid ts ms, th) ∧ th ≠ Done Failed ∧ th ≠ Gone) as H1.
  { simpl in Hs. injection Hs as <-. simpl. unfold t. rewrite lookup_app_r, Nat.sub_diag by done. by eexists. }
  assert (history ((es ++ [Start (Write pid uid ts ms)]) ++ es') w2 ∧ ∃ th, w_calls w2 !! t = Some (Write pid uid ts ms, th) ∧ th ≠ Done Failed ∧ th ≠ Gone) as [Hr2 (th & Ht & Hn & _)].
  { clear Hd El Hs. induction Hr' as [|w1 es' wa e wb Hr' IH Hp Hs']; [by rewrite app_nil_r|]. destruct IH as [Hra (th & Ht & ? & ?)]; [done..|].
    rewrite app_assoc. split; [by econstructor|]. eapply write_fine; [by eapply inv_run|done..|by eapply HP|done]. }
  rewrite Hd in Ht. injection Ht as <-. destruct (inv_run _ _ _ Hr2) as (_ & Hsh & _). pose proof (Hsh _ _ _ Hd) as H.
  destruct H as [?|[?|[?|[(rem & H & _)|(? & ? & ? & ? & ? & _)]]]]; try done. destruct rem; [by injection H as ->|done].
Qed.
Print Assumptions C88_write_works.

(** A read answers with a page of the timeline as it was at some moment of the call; with nothing if the bounds make no sense; and with
    the whole timeline if it starts behind the end. *)
Theorem C88_read P u a b w w1 es w2 ids :
  step (Start (Read u a b)) w = Some w1 → run P w1 es w2 → w_calls w2 !! length (w_calls w) = Some (Read u a b, Done (Ids ids)) →
  ((a < 0 ∨ b ≤ a) ∧ ids = []) ∨
  (0 ≤ a < b ∧ ∃ es1 wm es2, es = es1 ++ es2 ∧ run P w1 es1 wm ∧
     let l := (timeline wm u).*1 in ids = if decide (a < Z.of_nat (length l)) then page l a b else l).
Proof.
  intros Hs Hr Hd. destruct (read_linear P _ _ _ _ _ _ _ Hs Hr) as (th & Ht & Hsh). rewrite Hd in Ht. injection Ht as <-.
  destruct Hsh as [H|[(es1 & wm & es2 & -> & Hr1 & Hab & [?|[= ->]])|[?|?]]]; try done.
  - left. unfold read in H. destruct ((b <=? a) || (a <? 0)) eqn:E; [|done]. injection H as ->. split; [|done].
    apply orb_true_iff in E as [?%Z.leb_le|?%Z.ltb_lt]; auto.
  - right. split; [done|]. exists es1, wm, es2. split; [done|]. split; [done|]. cbv zeta. by apply cut_page.
Qed.
Print Assumptions C88_read.

(** ** What does not hold *)
Fixpoint play (es : list event) (w : world) : option world := match es with [] => Some w | e :: es => w' ← step e w; play es w' end.
Lemma run_cons (P : world → event → Prop) e w w1 es w2 : P w e → step e w = Some w1 → run P w1 es w2 → run P w (e :: es) w2.
Proof. intros Hp Hs Hr. apply (run_app P w [e] w1 es w2); [|done]. apply (run_snoc P w [] w e w1); [constructor|done|done]. Qed.
Lemma play_run es w w' : play es w = Some w' → run (λ _ _, True) w es w'.
Proof.
  revert w. induction es as [|e es IH]; intros w; cbn [play]; [intros [= <-]; constructor|].
  intros (w1 & Hs & Hp)%bind_Some. eapply run_cons; [done|done|by apply IH].
Qed.

(** Tidy histories, computed *)
Definition writing (w : world) (t : nat) : option Z := match w_calls w !! t with Some (_, Running (Put k _ _)) => Some k | _ => None end.
Definition tidyb (w : world) (e : event) : bool :=
  match e with
  | Step t _ => match writing w t with
      | Some k => forallb (λ i, match writing w i with Some k' => negb (k' =? k) || Nat.eqb i t | None => true end) (seq 0 (length (w_calls w)))
      | None => true
      end
  | Evict _ => false
  | _ => true
  end.
Fixpoint playt (es : list event) (w : world) : option world := match es with [] => Some w | e :: es => if tidyb w e then w' ← step e w; playt es w' else None end.
Lemma tidyb_ok w e : tidyb w e = true → tidy w e.
Proof.
  destruct e as [| |t f| |k]; try done. simpl. intros H k t' (o & v & p & H1) (o' & v' & p' & H2). unfold writing in H at 1. rewrite H1 in H.
  rewrite forallb_forall in H. specialize (H t'). rewrite <-elem_of_list_In, elem_of_seq in H. apply lookup_lt_Some in H2 as Hl. specialize (H ltac:(lia)).
  unfold writing in H. rewrite H2, Z.eqb_refl in H. by apply Nat.eqb_eq in H.
Qed.
Lemma playt_run es w w' : playt es w = Some w' → run tidy w es w'.
Proof.
  revert w. induction es as [|e es IH]; intros w; cbn [playt]; [intros [= <-]; constructor|].
  destruct (tidyb w e) eqn:E; [|done]. intros (w1 & Hs & Hp)%bind_Some. eapply run_cons; [by apply tidyb_ok|done|by apply IH].
Qed.

(** Two writes at the same time: all works and both are acknowledged, but the follower gets only one of the posts. *)
Theorem C88_race_refuted : ∃ es w, history es w ∧ (∀ k, Evict k ∉ es) ∧ (∀ t f, Step t f ∈ es → f = Fine) ∧
  w_calls w = [(Write 10 1 5 [], Done Ok); (Write 11 2 6 [], Done Ok)] ∧ for_user es w 0 3 ∧ for_user es w 1 3 ∧ timeline w 3 = [(11, 6)].
Proof.
  exists [Start (Write 10 1 5 []); Start (Write 11 2 6 []); Told 0 [3] [3]; Told 1 [3] [3]; Step 0 Fine; Step 1 Fine; Step 0 Fine; Step 1 Fine].
  eexists. split; [apply play_run; vm_compute; reflexivity|]. split; [intros k Hin; rewrite !elem_of_cons, elem_of_nil in Hin; naive_solver|].
  split; [intros t f Hin; rewrite !elem_of_cons, elem_of_nil in Hin; naive_solver|]. split; [done|].
  split; [|split; [|done]].
  - exists 10, 1, 5, [], (Done Ok), [3], [3]. split; [done|]. split; [set_solver|]. left. set_solver.
  - exists 11, 2, 6, [], (Done Ok), [3], [3]. split; [done|]. split; [set_solver|]. left. set_solver.
Qed.
Print Assumptions C88_race_refuted.

(** "Adds a new post to the home timeline of (i) user with id userID": not so, unless the user is also a follower or mentioned. *)
Theorem C88_author_refuted : ∃ es w, run tidy started es w ∧ w_calls w = [(Write 10 1 5 [4], Done Ok)] ∧ timeline w 3 = [(10, 5)] ∧ timeline w 4 = [(10, 5)] ∧ timeline w 1 = [].
Proof.
  exists [Start (Write 10 1 5 [4]); Told 0 [3] [4; 3]; Step 0 Fine; Step 0 Fine; Step 0 Fine; Step 0 Fine].
  eexists. split; [apply playt_run; vm_compute; reflexivity|]. done.
Qed.
Print Assumptions C88_author_refuted.

(** A write that fails half-way has delivered the post to some; trying again delivers it to them twice. *)
Theorem C88_retry_refuted : ∃ es w, history es w ∧ w_calls w = [(Write 10 1 5 [], Done Failed); (Write 10 1 5 [], Done Ok)] ∧ timeline w 3 = [(10, 5); (10, 5)] ∧ timeline w 4 = [(10, 5)].
Proof.
  exists [Start (Write 10 1 5 []); Told 0 [3; 4] [3; 4]; Step 0 Fine; Step 0 Fine; Step 0 Refused; Start (Write 10 1 5 []); Told 1 [3; 4] [4; 3]; Step 1 Fine; Step 1 Fine; Step 1 Fine; Step 1 Fine].
  eexists. split; [apply play_run; vm_compute; reflexivity|]. done.
Qed.
Print Assumptions C88_retry_refuted.

(** "The return value is represented by the slice post_ids[start:stop]": a page behind the end is the whole timeline. *)
Theorem C88_page_refuted : ∃ es w, history es w ∧ timeline w 3 = [(10, 5)] ∧ page ((timeline w 3).*1) 1 2 = [] ∧
  w_calls w = [(Write 10 1 5 [3], Done Ok); (Read 3 1 2, Done (Ids [10]))].
Proof.
  exists [Start (Write 10 1 5 [3]); Told 0 [] [3]; Step 0 Fine; Step 0 Fine; Start (Read 3 1 2); Step 1 Fine; Step 1 Fine].
  eexists. split; [apply play_run; vm_compute; reflexivity|]. done.
Qed.
Print Assumptions C88_page_refuted.

(** ** A concrete case: two overlapping writes that do not meet, a mention, duplicates, reads of a page *)
Example C88_nonvacuous : ∃ es w, run tidy started es w ∧
  w_calls w = [(Write 10 1 5 [3; 3], Done Ok); (Write 11 2 6 [], Done Ok); (Read 3 1 5, Done (Ids [11])); (Read 4 0 1, Done (Ids [10])); (Read 4 2 2, Done (Ids []))] ∧
  timeline w 3 = [(10, 5); (11, 6)] ∧ for_user es w 0 3 ∧ for_user es w 1 3.
Proof.
  exists [Start (Write 10 1 5 [3; 3]); Start (Write 11 2 6 []); Told 0 [4; 3] [3; 4]; Told 1 [3] [3]; Step 0 Fine; Step 0 Fine; Step 1 Fine; Step 0 Fine; Step 1 Fine; Step 0 Fine;
    Start (Read 3 1 5); Start (Read 4 0 1); Step 3 Fine; Step 2 Fine; Step 3 Fine; Step 2 Fine; Start (Read 4 2 2)].
  eexists. split; [|split; [|split; [|split]]].
  - apply playt_run. vm_compute. reflexivity.
  - done.
  - done.
  - exists 10, 1, 5, [3; 3], (Done Ok), [4; 3], [3; 4]. split; [done|]. split; [set_solver|]. left. set_solver.
  - exists 11, 2, 6, [], (Done Ok), [3], [3]. split; [done|]. split; [set_solver|]. left. set_solver.
Qed.
