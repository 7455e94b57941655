(** * C89: accounts, cards and addresses of the sock shop *)
From Verif Require Import ShopUsers_Proof.
From stdpp Require Export list.

(** In every history of overlapping calls, with any failures of the database: who logs in gave the password with which the account they get was
    made; every address in the answer was given for this account, and so was every card, of which only the last four characters are shown. *)
Theorem C89_login_sound hash es w t n p u cs ads :
  good_hash hash → history hash es w → w_calls w !! t = Some (Login n p, Done (Found u cs ads)) →
  (∃ s cards addrs th, w_calls w !! u.1 = Some (PostUser n p s cards addrs, th)) ∧ u.2 = 0%nat ∧
  (∀ m, m ∈ cs → ∃ x, given_for w Cards u x ∧ masks m x) ∧ (∀ a, a ∈ ads → given_for w Addrs u a).
Proof.
  intros Hh Hr Ht. destruct (login_found hash w t n p u cs ads Hh (inv_history _ _ _ Hr) Ht) as (H1 & H2 & H3 & H4).
  rewrite Forall_forall in H3. rewrite Forall_forall in H4. auto.
Qed.
Print Assumptions C89_login_sound.

(** In every history no card and no address is listed by two users. *)
Theorem C89_not_shared hash es w k u u' i : history hash es w → lists w k u i → lists w k u' i → u = u'.
Proof.
  intros Hr (d & Hd & Hi) (d' & Hd' & Hi'). pose proof (inv_history _ _ _ Hr) as Hinv.
  apply (inv_users _ _ Hinv) in Hd as [_ Hd]. apply (inv_users _ _ Hinv) in Hd' as [_ Hd']. eapply owner_fun; eauto.
Qed.
Print Assumptions C89_not_shared.

(** In every history the card or address that a user lists, if stored, is one that was given for this user. *)
Theorem C89_own hash es w k u i x : history hash es w → lists w k u i → (i, x) ∈ w_items w k → given_for w k u x.
Proof.
  intros Hr (d & Hd & Hi) Hx. pose proof (inv_history _ _ _ Hr) as Hinv.
  apply (inv_users _ _ Hinv) in Hd as [_ Hd]. eapply owner_made; [by apply Hd|]. by eapply inv_items.
Qed.
Print Assumptions C89_own.

(** After an acknowledged deletion of a card or address, begun when the call that made it was over, it is not stored and no user lists it, whatever happens. *)
Theorem C89_item_deleted hash es1 w1 es2 w2 k i t :
  history hash es1 w1 → over w1 i.1 → run hash (λ _ _, True) w1 es2 w2 → (length (w_calls w1) ≤ t)%nat →
  w_calls w2 !! t = Some (DeleteItem k (Id i), Done Ok) → ¬ stored w2 k i ∧ ∀ u, ¬ lists w2 k u i.
Proof.
  intros Hr Ho Hr2 Hl Ht. destruct (deleted_item hash _ _ _ _ k i t Hr2 (inv_history _ _ _ Hr) Ho Hl _ Ht) as (_ & H1 & H2). auto.
Qed.
Print Assumptions C89_item_deleted.

(** The same for users. *)
Theorem C89_user_deleted hash es1 w1 es2 w2 u t :
  history hash es1 w1 → over w1 u.1 → run hash (λ _ _, True) w1 es2 w2 → (length (w_calls w1) ≤ t)%nat →
  w_calls w2 !! t = Some (DeleteUser (Id u), Done Ok) → ¬ has_user w2 u.
Proof. intros Hr Ho Hr2 Hl Ht. eapply deleted_user; eauto using inv_history. Qed.
Print Assumptions C89_user_deleted.

(** While nothing is deleted and no answer to the insertion of a user is lost: an acknowledged new user is stored, with all the cards and addresses given. *)
Theorem C89_created hash es w t n p s cs ads :
  run hash keeps started es w → w_calls w !! t = Some (PostUser n p s cs ads, Done Ok) →
  ∃ d, ((t, 0%nat), d) ∈ w_users w ∧ u_name d = n ∧
    (∀ x, x ∈ cs → ∃ i, i ∈ u_refs d Cards ∧ (i, x) ∈ w_items w Cards) ∧ (∀ x, x ∈ ads → ∃ i, i ∈ u_refs d Addrs ∧ (i, x) ∈ w_items w Addrs).
Proof.
  intros Hr Ht. destruct (kinv_history _ _ _ Hr) as [_ Hk]. destruct (k_created _ _ Hk _ _ _ _ _ _ Ht) as (d & Hd & Hn & _ & _ & Hrefs).
  assert (∀ k x, x ∈ list_of k cs ads → ∃ i, i ∈ u_refs d k ∧ (i, x) ∈ w_items w k) as H.
  { intros k x [j Hj]%elem_of_list_lookup. exists (t, (base k cs + j)%nat). split; [apply Hrefs; by eapply lookup_lt_Some|].
    destruct (k_made _ _ Hk _ _ _ _ _ _ _ _ _ _ Ht eq_refl Hj) as [|H]; [done|]. by apply elem_of_nil in H. }
  exists d. split; [done|]. split; [done|]. split; [apply (H Cards)|apply (H Addrs)].
Qed.
Print Assumptions C89_created.

(** And an acknowledged card or address, posted for a user that was there, is stored and listed by the user. *)
Theorem C89_posted hash es1 w1 es2 w2 k u x t :
  run hash keeps started es1 w1 → has_user w1 u → run hash keeps w1 es2 w2 → (length (w_calls w1) ≤ t)%nat →
  w_calls w2 !! t = Some (Post k (Id u) x, Done Ok) → lists w2 k u (t, 0%nat) ∧ ((t, 0%nat), x) ∈ w_items w2 k.
Proof.
  intros Hr Hu Hr2 Hl Ht. destruct (kinv_history _ _ _ Hr) as [Hi Hk]. split; [by eapply posted|].
  destruct (kinv_run _ _ _ _ Hr2 Hi Hk) as [_ Hk2]. apply (k_posted _ _ Hk2 _ _ _ _ _ Ht). by right.
Qed.
Print Assumptions C89_posted.

(** And every card and address that a user lists is stored. *)
Theorem C89_no_dangling hash es w k u i : run hash keeps started es w → lists w k u i → stored w k i.
Proof. intros Hr (d & Hd & Hi). destruct (kinv_history _ _ _ Hr) as [_ Hk]. by eapply k_refs. Qed.
Print Assumptions C89_no_dangling.

(** And a login with the right password, during which nothing else happens, succeeds and gives all that the user lists, if there is no other call to make
    a user of that name and all cards given for the user have at least four characters. *)
Theorem C89_login_complete hash es w t0 n p s cs ads :
  run hash keeps started es w → w_calls w !! t0 = Some (PostUser n p s cs ads, Done Ok) →
  (∀ t p' s' cs' ads' th, w_calls w !! t = Some (PostUser n p' s' cs' ads', th) → t = t0) →
  (∀ x, given_for w Cards (t0, 0%nat) x → (4 ≤ String.length x)%nat) →
  ∃ es' w' cs' ads', Forall (eq (Step (length (w_calls w)) Fine)) es' ∧ run hash (λ _ _, True) w (Start (Login n p) :: es') w' ∧
    w_calls w' !! length (w_calls w) = Some (Login n p, Done (Found (t0, 0%nat) cs' ads')) ∧
    (∀ i x, lists w Addrs (t0, 0%nat) i → (i, x) ∈ w_items w Addrs → x ∈ ads') ∧
    (∀ i x, lists w Cards (t0, 0%nat) i → (i, x) ∈ w_items w Cards → ∃ m, m ∈ cs' ∧ masks m x).
Proof. intros Hr. destruct (kinv_history _ _ _ Hr) as [Hi Hk]. eapply login_works; eauto using nodup_history. Qed.
Print Assumptions C89_login_complete.

(** ** What does not hold *)
Definition h (x : string) : string := "h" +:+ x.
Lemma h_good : good_hash h.
Proof. split; [done|]. intros x y H. by injection H. Qed.
Fixpoint play (es : list event) (w : world) : option world := match es with [] => Some w | e :: es => w' ← step h e w; play es w' end.
Lemma play_run es w w' : play es w = Some w' → run h (λ _ _, True) w es w'.
Proof.
  revert w. induction es as [|e es IH]; intros w; cbn [play]; [intros [= <-]; constructor|].
  intros (w1 & Hs & Hp)%bind_Some. apply (run_app h _ w [e] w1 es w'); [by apply run_one|by apply IH].
Qed.
Definition mild (e : event) : bool := match e with Start (DeleteItem _ _) | Start (DeleteUser _) | Step _ Lost => false | _ => true end.
Lemma play_keeps es w w' : forallb mild es = true → play es w = Some w' → run h keeps w es w'.
Proof.
  revert w. induction es as [|e es IH]; intros w; cbn [play forallb]; [intros _ [= <-]; constructor|].
  intros [He Hes]%andb_true_iff (w1 & Hs & Hp)%bind_Some. apply (run_app h _ w [e] w1 es w'); [|by apply IH].
  apply run_one; [|done]. destruct e as [o|t f|t]; [by destruct o|by destruct f|done].
Qed.
Fixpoint steps (t n : nat) : list event := match n with 0 => [] | S n => Step t Fine :: steps t n end.
Definition refs_of (w : world) (k : kind) : list (oid * list oid) := (λ x, (x.1, u_refs x.2 k)) <$> w_users w.
Local Open Scope nat_scope.

(** A deletion of a user that stops half-way leaves a user whose cards are gone. *)
Theorem C89_dangling_refuted : ∃ es w, history h es w ∧
  w_calls w = [(PostUser "a" "p" "s" ["1234567"] [], Done Ok); (DeleteUser (Id (0, 0)), Gone)] ∧ refs_of w Cards = [((0, 0), [(0, 1)])] ∧ w_items w Cards = [].
Proof.
  exists ([Start (PostUser "a" "p" "s" ["1234567"] [])] ++ steps 0 2 ++ [Start (DeleteUser (Id (0, 0)))] ++ steps 1 3 ++ [Kill 1]).
  eexists. split; [apply play_run; vm_compute; reflexivity|]. done.
Qed.
Print Assumptions C89_dangling_refuted.

(** If the answer to the insertion of a user is lost, PostUser fails, but the user is there, without the cards given: the cleaning-up removed them. *)
Theorem C89_lost_insert_refuted : ∃ es w, history h es w ∧
  w_calls w = [(PostUser "a" "p" "s" ["1234567"] [], Done Failed); (Login "a" "p", Done (Found (0, 0) [] []))] ∧
  refs_of w Cards = [((0, 0), [(0, 1)])] ∧ w_items w Cards = [].
Proof.
  exists ([Start (PostUser "a" "p" "s" ["1234567"] []); Step 0 Fine; Step 0 Lost] ++ steps 0 2 ++ [Start (Login "a" "p")] ++ steps 1 2).
  eexists. split; [apply play_run; vm_compute; reflexivity|]. done.
Qed.
Print Assumptions C89_lost_insert_refuted.

(** A card posted for a user that does not exist is acknowledged; nobody lists it. *)
Theorem C89_unknown_user_refuted : ∃ es w, run h keeps started es w ∧ w_calls w = [(Post Cards (Id (7, 0)) "1234567", Done Ok)] ∧ w_users w = [] ∧
  w_items w Cards = [((0, 0), "1234567")].
Proof.
  exists ([Start (Post Cards (Id (7, 0)) "1234567")] ++ steps 0 2). eexists. split; [apply play_keeps; [done|vm_compute; reflexivity]|]. done.
Qed.
Print Assumptions C89_unknown_user_refuted.

(** Two users of the same name are both acknowledged; the second cannot log in. *)
Theorem C89_same_name_refuted : ∃ es w, run h keeps started es w ∧
  w_calls w = [(PostUser "a" "p" "s" [] [], Done Ok); (PostUser "a" "q" "r" [] [], Done Ok); (Login "a" "q", Done Failed)].
Proof.
  exists ([Start (PostUser "a" "p" "s" [] []); Step 0 Fine; Start (PostUser "a" "q" "r" [] []); Step 1 Fine; Start (Login "a" "q"); Step 2 Fine]).
  eexists. split; [apply play_keeps; [done|vm_compute; reflexivity]|]. done.
Qed.
Print Assumptions C89_same_name_refuted.

(** A card number of less than four characters is accepted; from then on the user's logins crash. *)
Theorem C89_short_card_refuted : ∃ es w, run h keeps started es w ∧
  w_calls w = [(PostUser "a" "p" "s" [] [], Done Ok); (Post Cards (Id (0, 0)) "123", Done Ok); (Login "a" "p", Done Panic)].
Proof.
  exists ([Start (PostUser "a" "p" "s" [] []); Step 0 Fine; Start (Post Cards (Id (0, 0)) "123")] ++ steps 1 2 ++ [Start (Login "a" "p")] ++ steps 2 2).
  eexists. split; [apply play_keeps; [done|vm_compute; reflexivity]|]. done.
Qed.
Print Assumptions C89_short_card_refuted.

(** When the database refuses to give the cards of a user, the login does not fail but crashes. *)
Theorem C89_db_failure_refuted : ∃ es w, run h keeps started es w ∧
  w_calls w = [(PostUser "a" "p" "s" ["1234567"] [], Done Ok); (Login "a" "p", Done Panic)].
Proof.
  exists ([Start (PostUser "a" "p" "s" ["1234567"] [])] ++ steps 0 2 ++ [Start (Login "a" "p"); Step 1 Fine; Step 1 Refused]).
  eexists. split; [apply play_keeps; [done|vm_compute; reflexivity]|]. done.
Qed.
Print Assumptions C89_db_failure_refuted.

(** A PostUser that fails can leave cards that nobody lists. *)
Theorem C89_orphan_refuted : ∃ es w, run h keeps started es w ∧
  w_calls w = [(PostUser "a" "p" "s" ["1234567"] ["x"], Done Failed)] ∧ w_users w = [] ∧ w_items w Cards = [((0, 1), "1234567")].
Proof.
  exists [Start (PostUser "a" "p" "s" ["1234567"] ["x"]); Step 0 Fine; Step 0 Refused].
  eexists. split; [apply play_keeps; [done|vm_compute; reflexivity]|]. done.
Qed.
Print Assumptions C89_orphan_refuted.

(** A card deleted while the call that makes it is under way can end up listed though deleted. *)
Theorem C89_early_delete_refuted : ∃ es w, history h es w ∧
  w_calls w = [(PostUser "a" "p" "s" [] [], Done Ok); (Post Cards (Id (0, 0)) "1234567", Done Ok); (DeleteItem Cards (Id (1, 0)), Done Ok)] ∧
  refs_of w Cards = [((0, 0), [(1, 0)])] ∧ w_items w Cards = [].
Proof.
  exists ([Start (PostUser "a" "p" "s" [] []); Step 0 Fine; Start (Post Cards (Id (0, 0)) "1234567"); Step 1 Fine; Start (DeleteItem Cards (Id (1, 0)))] ++ steps 2 2 ++ [Step 1 Fine]).
  eexists. split; [apply play_run; vm_compute; reflexivity|]. done.
Qed.
Print Assumptions C89_early_delete_refuted.

(** ** A concrete case: two users, cards and addresses from the start and posted later, logins, then deletions *)
Definition case_a : list event :=
  [Start (PostUser "a" "p" "s" ["1234567"; "7654321"] ["home"]); Start (PostUser "b" "q" "r" [] [])] ++ steps 0 2 ++ steps 1 1 ++ steps 0 2.
Definition case_b : list event :=
  [Start (Post Cards (Id (0, 0)) "00009999"); Start (Post Addrs (Id (1, 0)) "work")] ++ steps 2 1 ++ steps 3 2 ++ steps 2 1 ++
  [Start (Login "a" "p"); Start (Login "b" "q")] ++ steps 4 3 ++ steps 5 2.
Definition case_c : list event := [Start (DeleteItem Cards (Id (0, 1)))] ++ steps 6 2 ++ [Start (DeleteUser (Id (1, 0)))] ++ steps 7 4 ++ [Start (Login "a" "p")] ++ steps 8 3.
Example C89_nonvacuous : good_hash h ∧ ∃ w1 w2 w3,
  run h keeps started case_a w1 ∧ run h keeps w1 case_b w2 ∧ run h (λ _ _, True) w2 case_c w3 ∧ has_user w1 (0, 0) ∧ has_user w1 (1, 0) ∧
  (w_calls w2).*2 = [Done Ok; Done Ok; Done Ok; Done Ok; Done (Found (0, 0) ["***4567"; "***4321"; "****9999"] ["home"]); Done (Found (1, 0) [] ["work"])] ∧
  refs_of w2 Cards = [((1, 0), []); ((0, 0), [(0, 1); (0, 2); (2, 0)])] ∧ over w2 0 ∧ over w2 1 ∧
  (w_calls w3).*2 !! 6 = Some (Done Ok) ∧ (w_calls w3).*2 !! 7 = Some (Done Ok) ∧ (w_calls w3).*2 !! 8 = Some (Done (Found (0, 0) ["***4321"; "****9999"] ["home"])) ∧
  w_items w3 Addrs = [((0, 3), "home")].
Proof.
  split; [apply h_good|]. eexists _, _, _. split; [apply play_keeps; [done|vm_compute; reflexivity]|].
  split; [apply play_keeps; [done|vm_compute; reflexivity]|]. split; [apply play_run; vm_compute; reflexivity|].
  split; [eexists; apply elem_of_list_lookup; exists 1; reflexivity|]. split; [eexists; apply elem_of_list_lookup; exists 0; reflexivity|]. split; [done|]. split; [done|].
  split; [eexists _, _; split; [done|done]|]. split; [eexists _, _; split; [done|done]|]. done.
Qed.
