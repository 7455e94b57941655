(** * Properties of the composition of posts *)
From Verif Require Import NewPost_Proof.
From stdpp Require Import sets list.
Set Default Proof Using "Type".
Open Scope Z_scope.

(** ** C95 *)
(** An acknowledged post is stored as it was given, and is in the author's timeline and in home timelines with its mentions. *)
Theorem C95_acknowledged es w t a r : history es w → answered w t a r → r_fails r = false →
  ∃ p, p ∈ w_posts w ∧ made_from es t a p ∧ r_id r = p_id p ∧ r_mentions r = (p_mentions p).*1 ∧
    (a_user a, p_id p, a_clock a) ∈ w_user w ∧ (a_user a, p_id p, a_clock a, (p_mentions p).*1) ∈ w_home w.
Proof.
  intros Hh Ha Hf. destruct (inv_history _ _ Hh) as (H1 & _). destruct (H1 _ _ _ Ha) as [[-> _]|(p & E1 & E2 & Hm & Hall)]; [done|].
  assert (∀ k, has a p k w) as Hk by (intros k; apply Hall; [done|apply not_elem_of_nil]).
  exists p. split; [exact (Hk Storage)|]. split; [done|]. split; [done|]. split; [done|]. split; [exact (Hk User)|exact (Hk Home)].
Qed.
(** What is stored, and what is in timelines, comes from calls, with their own arguments. *)
Theorem C95_traced es w : history es w →
  (∀ p, p ∈ w_posts w → ∃ t a th, w_calls w !! t = Some (a, th) ∧ made_from es t a p) ∧
  (∀ u i c, (u, i, c) ∈ w_user w → ∃ t a th p, w_calls w !! t = Some (a, th) ∧ made_from es t a p ∧ p_id p = i ∧ u = a_user a ∧ c = a_clock a) ∧
  (∀ u i c ms, (u, i, c, ms) ∈ w_home w → ∃ t a th p, w_calls w !! t = Some (a, th) ∧ made_from es t a p ∧ p_id p = i ∧ u = a_user a ∧ c = a_clock a ∧ ms = (p_mentions p).*1).
Proof.
  intros Hh. destruct (inv_history _ _ Hh) as (_ & H2 & H3 & H4 & _). split; [|split].
  - intros p Hp. destruct (H2 _ Hp) as [_ (t & a & th & ? & ? & _)]. by exists t, a, th.
  - intros u i c Hp. destruct (H3 _ _ _ Hp) as (p & ? & t & a & th & ? & ? & ? & ?). by exists t, a, th, p.
  - intros u i c ms Hp. destruct (H4 _ _ _ _ Hp) as (p & ? & t & a & th & ? & ? & ? & ? & ?). by exists t, a, th, p.
Qed.
(** If the media lists do not match, or the text or id service fails, the answer is an error with the id -1, and there is no post of this call. *)
Theorem C95_refused es w t a r : history es w → answered w t a r →
  length (a_types a) ≠ length (a_ids a) ∨ (∃ i, Prepared t None i ∈ es) ∨ (∃ s, Prepared t s None ∈ es) → r = Reply (-1) [] true ∧ ∀ p, ¬ made_from es t a p.
Proof.
  intros Hh Ha Hbad. destruct (inv_history _ _ Hh) as (H1 & _ & _ & _ & _ & H6 & _). destruct (H1 _ _ _ Ha) as [[-> Hn]|(p & E1 & E2 & Hm & Hall)]; [done|].
  exfalso. destruct Hm as (Hev & _ & _ & _ & M1 & M2). destruct Hbad as [Hl|[[i Hi]|[s Hs]]].
  - rewrite <-M1, <-M2, !fmap_length in Hl. done.
  - by destruct (H6 _ _ _ _ _ Hev Hi) as [? _].
  - by destruct (H6 _ _ _ _ _ Hev Hs) as [_ ?].
Qed.
(** If ids are given out once, each post is at most once in storage and timelines. *)
Theorem C95_once es w : history es w → NoDup (given es) →
  NoDup (p_id <$> w_posts w) ∧ NoDup ((λ x, x.1.2) <$> w_user w) ∧ NoDup ((λ x, x.1.1.2) <$> w_home w).
Proof. intros Hh Hn. destruct (inv2_history _ _ Hh Hn) as (H & _). exact (conj (H Storage) (conj (H User) (H Home))). Qed.

(** ** What does not hold *)
Fixpoint play (es : list event) (w : world) : option world := match es with [] => Some w | e :: es => match step e w with Some w => play es w | None => None end end.
Lemma play_run es : ∀ w w', play es w = Some w' → run w es w'.
Proof.
  induction es as [|e es IH] using rev_ind; intros w w'; [intros [= <-]; constructor|].
  assert (∀ a b w, play (a ++ b) w = match play a w with Some w => play b w | None => None end) as Happ by (induction a as [|x a IHa]; simpl; [done|intros b v; by destruct (step x v)]).
  rewrite Happ. destruct (play es w) as [w1|] eqn:E; [|done]. simpl. intros H. destruct (step e w1) as [w2|] eqn:Es; [|done]. injection H as <-. eapply run_snoc; [by apply IH|done].
Qed.
Definition hello : args := Args 1 "ann" 8 "hi @bob" [5; 6] ["png"; "gif"] 0 1000.
Definition hello_text : option texted := Some ("hi @bob", [(7, "bob")], []).
(** A call that fails can have made any of the three writes, and none is taken back. *)
Theorem C95_atomic_refuted (b1 b2 b3 : bool) : ∃ es w, history es w ∧ answered w 0 hello (Reply 42 [7] true) ∧
  length (w_posts w) = (if b1 then 1 else 0)%nat ∧ length (w_user w) = (if b2 then 1 else 0)%nat ∧ length (w_home w) = (if b3 then 1 else 0)%nat.
Proof.
  set (f := λ b : bool, if b then Lost else Refused).
  exists [Start hello; Prepared 0 hello_text (Some 42); Write 0 Home (f b3); Write 0 Storage (f b1); Write 0 User (f b2)].
  destruct b1, b2, b3; eexists; (split; [apply play_run; vm_compute; reflexivity|]); repeat split.
Qed.
(** Timelines can show a post before it is stored. *)
Theorem C95_order_refuted : ∃ es w, history es w ∧ w_home w = [(8, 42, 1000, [7])] ∧ w_user w = [(8, 42, 1000)] ∧ w_posts w = [].
Proof. exists [Start hello; Prepared 0 hello_text (Some 42); Write 0 Home Fine; Write 0 User Fine]. eexists. split; [apply play_run; vm_compute; reflexivity|]. done. Qed.
(** No stored post has the time that timelines have for it: its time is 0. *)
Theorem C95_time_refuted es w p : history es w → p ∈ w_posts w → p_time p = 0.
Proof. intros Hh Hp. destruct (inv_history _ _ Hh) as (_ & H2 & _). by destruct (H2 _ Hp). Qed.

(** ** The hypotheses can be met *)
Definition story : list event :=
  [Start hello; Start (Args 2 "bob" 7 "x" [] ["png"] 1 1001); Start (Args 3 "bob" 7 "y" [] [] 1 1002); Prepared 0 hello_text (Some 42); Write 0 Home Fine;
   Prepared 1 (Some ("x", [], [])) (Some 43); Prepared 2 None (Some 44); Write 0 Storage Fine; Start (Args 4 "eve" 9 "z" [] [] 0 1003); Prepared 3 (Some ("z", [], [])) (Some 45);
   Write 3 User Fine; Kill 3; Write 0 User Fine].
Example C95_nonvacuous : NoDup (given story) ∧ ∃ w, history story w ∧ answered w 0 hello (Reply 42 [7] false) ∧
  answered w 1 (Args 2 "bob" 7 "x" [] ["png"] 1 1001) (Reply (-1) [] true) ∧ answered w 2 (Args 3 "bob" 7 "y" [] [] 1 1002) (Reply (-1) [] true) ∧
  w_posts w = [Post 42 (8, "ann") 1 "hi @bob" [(7, "bob")] [(5, "png"); (6, "gif")] [] 0 0] ∧ w_user w = [(9, 45, 1003); (8, 42, 1000)] ∧ Prepared 2 None (Some 44) ∈ story.
Proof.
  split; [apply (bool_decide_unpack _); vm_compute; exact I|]. eexists. split; [apply play_run; vm_compute; reflexivity|].
  do 5 (split; [reflexivity|]). do 6 right. left.
Qed.

Print Assumptions C95_acknowledged.
Print Assumptions C95_traced.
Print Assumptions C95_refused.
Print Assumptions C95_once.
Print Assumptions C95_atomic_refuted.
Print Assumptions C95_order_refuted.
Print Assumptions C95_time_refuted.
Print Assumptions C95_nonvacuous.
