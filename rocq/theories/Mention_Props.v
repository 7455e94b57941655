(** * Properties of mentions *)
From Verif Require Import Mention_Proof.
From stdpp Require Import sets list.
Set Default Proof Using "Type".
Open Scope Z_scope.

(** ** C94 *)
(** The characters of names are these, and the sign before them is the @. *)
Theorem C94_characters c : (word c = true ↔ c ∈ name_characters) ∧ [at_sign] = txt "@".
Proof.
  split; [|done]. assert (word c = bool_decide (c ∈ name_characters)) as ->; [|by rewrite bool_decide_eq_true].
  destruct c as [[] [] [] [] [] [] [] []]; vm_compute; done.
Qed.
(** Users that are answered were registered with that id, and their names are mentioned in the text; the id of a name is one it was registered with. *)
Theorem C94_sound es w t : history es w →
  (∀ s l n i, answered w t (Mention s) (Mentions l) → (n, i) ∈ l → mentioned s n ∧ Register (n, i) ∈ es) ∧
  (∀ n i, answered w t (GetId n) (Id i) → Register (n, i) ∈ es).
Proof.
  intros Hh. destruct (inv_history t _ _ Hh) as (_ & _ & Hc). pose proof (run_joined _ _ _ Hh) as Hj. simpl in Hj.
  assert (∀ u, u ∈ w_db w → Register u ∈ es) as Hreg. { intros u Hu. rewrite Hj in Hu. apply elem_of_list_omap in Hu as ([v| | | |] & He & E); try done. by injection E as ->. }
  split.
  - intros s l n i Ha Hin. specialize (Hc _ _ _ Ha). simpl in Hc. apply said in Hc as (H1 & _ & _). destruct (H1 _ Hin). split; [by apply names_spec|by apply Hreg].
  - intros n i Ha. specialize (Hc _ _ _ Ha). simpl in Hc. apply Hreg. remember (Ret (Id i)) as p eqn:Ep. remember (GetId n) as o eqn:Eo. destruct Hc; try done.
    by injection Ep as ->; injection Eo as ->.
Qed.
(** Users registered before the call, and mentioned in the text, are answered; with one account for each name, with their id. *)
Theorem C94_complete es1 w1 s es2 w2 l n i : around es1 w1 (Mention s) es2 w2 → answered w2 (length (w_calls w1)) (Mention s) (Mentions l) →
  Register (n, i) ∈ es1 → mentioned s n → n ∈ l.*1 ∧ (NoDup (joined (es1 ++ es2)).*1 → (n, i) ∈ l).
Proof.
  intros Ha Hans Hreg Hm. destruct (inv_around _ _ _ _ _ Ha) as (_ & _ & Hc). specialize (Hc _ _ _ Hans). simpl in Hc. rewrite decide_True in Hc by done.
  apply said in Hc as (H1 & H2 & _). destruct Ha as (Hh & w1' & Hs & Hr). pose proof (run_joined _ _ _ Hh) as Hj. simpl in Hj. pose proof (run_joined _ _ _ Hr) as Hj2.
  injection Hs as <-. simpl in Hj2.
  assert ((n, i) ∈ w_db w1) as Hin. { rewrite Hj. apply elem_of_list_omap. exists (Register (n, i)). done. }
  assert (n ∈ l.*1) as Hn. { apply (H2 (n, i)); [done|]. by apply names_spec. }
  split; [done|]. intros Hnd. apply elem_of_list_fmap in Hn as ([n' i'] & -> & Hl). destruct (H1 _ Hl) as [_ Hd]. simpl in *.
  assert ((n', i) ∈ w_db w2) as Hin2 by (rewrite Hj2; apply elem_of_app; by left).
  unfold joined in Hnd. rewrite omap_app in Hnd. fold (joined es1) (joined es2) in Hnd. rewrite <-Hj, <-Hj2 in Hnd.
  assert (i' = i) as <-; [|done]. apply elem_of_list_lookup in Hd as [a Ea]. apply elem_of_list_lookup in Hin2 as [b Eb].
  assert (a = b) as <-. { apply (NoDup_lookup _ _ _ n' Hnd); rewrite list_lookup_fmap; [by rewrite Ea|by rewrite Eb]. }
  rewrite Ea in Eb. by injection Eb as ->.
Qed.
(** Nobody is answered twice if the text mentions nobody twice. *)
Theorem C94_once es w t s l : history es w → answered w t (Mention s) (Mentions l) → NoDup (names s) → NoDup (joined es).*1 → NoDup l.*1.
Proof.
  intros Hh Ha Hn Hd. destruct (inv_history t _ _ Hh) as (_ & _ & Hc). specialize (Hc _ _ _ Ha). apply said in Hc as (_ & _ & H3). apply H3; [done|].
  by rewrite (run_joined _ _ _ Hh).
Qed.
(** The names are those that the text mentions. *)
Theorem C94_names s n : n ∈ names s ↔ mentioned s n.
Proof. apply names_spec. Qed.
(** A call that the backends work for does not fail, unless it asks for the id of a name not registered when it begins. *)
Theorem C94_answers es1 w1 o es2 w2 r : around es1 w1 o es2 w2 → kind_to (length (w_calls w1)) es2 → (∀ n, o = GetId n → ∃ i, Register (n, i) ∈ es1) →
  answered w2 (length (w_calls w1)) o r → r ≠ Failed.
Proof.
  intros (Hh & w1' & Hs & Hr) Hk Hreg Ha. pose proof (run_joined _ _ _ Hh) as Hj. simpl in Hj.
  assert (well (length (w_calls w1)) (w_db w1) o w1') as Hw.
  { injection Hs as <-. split; [done|]. exists (settle (program o)). split; [simpl; by apply list_lookup_middle|]. apply settle_well.
    destruct o as [n|s]; [|apply h_mget]. apply h_get. destruct (Hreg n eq_refl) as [i Hi]. apply elem_of_list_fmap. exists (n, i). split; [done|].
    rewrite Hj. apply elem_of_list_omap. by exists (Register (n, i)). }
  destruct (well_run _ _ _ _ _ _ Hw Hk Hr) as (_ & th & Ht & Hth). unfold answered in Ha. rewrite Ha in Ht. injection Ht as <-. done.
Qed.

(** ** What does not hold *)
Fixpoint play (es : list event) (w : world) : option world := match es with [] => Some w | e :: es => match step e w with Some w => play es w | None => None end end.
Lemma play_run es : ∀ w w', play es w = Some w' → run w es w'.
Proof.
  induction es as [|e es IH] using rev_ind; intros w w'; [intros [= <-]; constructor|].
  assert (∀ a b w, play (a ++ b) w = match play a w with Some w => play b w | None => None end) as Happ by (induction a as [|x a IHa]; simpl; [done|intros b v; by destruct (step x v)]).
  rewrite Happ. destruct (play es w) as [w1|] eqn:E; [|done]. simpl. intros H. destruct (step e w1) as [w2|] eqn:Es; [|done]. injection H as <-. eapply run_snoc; [by apply IH|done].
Qed.
Definition bob : text := txt "bob".
Definition ann : text := txt "ann".
(** Names of nobody are no error, although the interface says so. *)
Theorem C94_unknown_refuted : ∃ es w, history es w ∧ kind_to 0 es ∧ answered w 0 (Mention (txt "hi @bob")) (Mentions []).
Proof.
  exists [Start (Mention (txt "hi @bob")); Step 0 Works; Step 0 Works]. eexists. split; [apply play_run; vm_compute; reflexivity|]. split; [repeat constructor|reflexivity].
Qed.
(** The answer to the same text depends on the cache: someone mentioned twice is answered once, or twice. *)
Theorem C94_twice_refuted : let s := txt "@bob @bob" in ∃ es w, history es w ∧ kind_to 0 es ∧ kind_to 2 es ∧
  answered w 0 (Mention s) (Mentions [(bob, 7)]) ∧ answered w 2 (Mention s) (Mentions [(bob, 7); (bob, 7)]).
Proof.
  exists [Register (bob, 7); Start (Mention (txt "@bob @bob")); Step 0 Works; Step 0 Works; Step 0 Works;
    Start (GetId bob); Step 1 Works; Step 1 Works; Step 1 Works; Start (Mention (txt "@bob @bob")); Step 2 Works; Step 2 Works].
  eexists. split; [apply play_run; vm_compute; reflexivity|]. split; [repeat constructor; done|]. split; [repeat constructor; done|]. split; reflexivity.
Qed.
(** Nor is the order that of the text, or always the same. *)
Theorem C94_order_refuted : let s := txt "@ann @bob" in ∃ es w, history es w ∧ kind_to 1 es ∧ names s = [ann; bob] ∧
  answered w 1 (Mention s) (Mentions [(bob, 7); (ann, 8)]).
Proof.
  exists [Register (ann, 8); Register (bob, 7); Start (GetId bob); Step 0 Works; Step 0 Works; Step 0 Works; Start (Mention (txt "@ann @bob")); Step 1 Works; Step 1 Works; Step 1 Works].
  eexists. split; [apply play_run; vm_compute; reflexivity|]. split; [repeat constructor; done|]. split; [vm_compute; reflexivity|reflexivity].
Qed.
(** Addresses of mail are taken for mentions. *)
Theorem C94_mail_refuted : names (txt "mail me@bob.org") = [bob].
Proof. vm_compute. reflexivity. Qed.

(** ** The hypotheses can be met *)
(** One user is cached, one is not, one name is unknown; the cache refuses one of the calls; an entry is dropped in between. *)
Definition story1 : list event :=
  [Register (bob, 7); Register (ann, 8); Start (GetId bob); Step 0 Works; Step 0 Works; Step 0 Works; Start (GetId ann); Step 1 Works; Step 1 Works; Step 1 Loses].
Definition story2 : list event := [Step 2 Works; Step 2 Refuses; Evict bob; Step 2 Works; Step 2 Works].
Example C94_nonvacuous : ∃ w1 w2, around story1 w1 (Mention (txt "@bob, @ann and @eve-1!")) story2 w2 ∧
  answered w2 0 (GetId bob) (Id 7) ∧ answered w2 1 (GetId ann) Failed ∧ length (w_calls w1) = 2%nat ∧
  answered w2 2 (Mention (txt "@bob, @ann and @eve-1!")) (Mentions [(bob, 7); (ann, 8)]) ∧
  mentioned (txt "@bob, @ann and @eve-1!") ann ∧ NoDup (joined (story1 ++ story2)).*1 ∧ NoDup (names (txt "@bob, @ann and @eve-1!")).
Proof.
  eexists. eexists. split.
  - split; [apply play_run; vm_compute; reflexivity|]. eexists. split; [reflexivity|]. apply play_run. vm_compute. reflexivity.
  - repeat (split; [reflexivity|]). split; [apply names_spec; vm_compute; right; left|]. split; apply (bool_decide_unpack _); vm_compute; exact I.
Qed.
Example C94_nonvacuous_answers : ∃ w1 w2, around [Register (bob, 7)] w1 (GetId bob) [Step 0 Works; Step 0 Works; Step 0 Works] w2 ∧
  kind_to 0 [Step 0 Works; Step 0 Works; Step 0 Works] ∧ length (w_calls w1) = 0%nat ∧ answered w2 0 (GetId bob) (Id 7).
Proof.
  eexists. eexists. split.
  - split; [apply play_run; vm_compute; reflexivity|]. eexists. split; [reflexivity|]. apply play_run. vm_compute. reflexivity.
  - split; [repeat constructor|]. split; reflexivity.
Qed.

Print Assumptions C94_characters.
Print Assumptions C94_sound.
Print Assumptions C94_complete.
Print Assumptions C94_once.
Print Assumptions C94_names.
Print Assumptions C94_answers.
Print Assumptions C94_unknown_refuted.
Print Assumptions C94_twice_refuted.
Print Assumptions C94_order_refuted.
Print Assumptions C94_mail_refuted.
Print Assumptions C94_nonvacuous.
Print Assumptions C94_nonvacuous_answers.
