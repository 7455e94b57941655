(** * C87: accounts, logins and creators of the social network's user service *)
From Verif Require Import Users_Model Users_Spec Users_Proof.
From stdpp Require Import list.
Set Default Proof Using "Type".
Open Scope Z_scope.

(** Whatever fails, is lost, killed or evicted and whatever runs at the same time: a token is only given for the user name that was asked for,
    with the id and password of the registration that made the account. *)
Theorem C87_login_sound hash es w u p u' i :
  good_hash hash → history hash es w → (Login u p, Done (Token u' i)) ∈ w_calls w →
  u' = u ∧ ∃ s th, (Register u p i s, th) ∈ w_calls w ∧ account w u (User u i (hash (p +:+ s)) s).
Proof.
  intros [Hh Hinj] Hr Hin. destruct (inv_history _ _ _ _ Hh Hr) as (Hd & _ & Ht).
  apply Ht in Hin as [?|[?|[?|[?|(d & Ha & Hp & [?|[= -> ->]])]]]]; try done. split; [done|].
  destruct (account_doc _ _ _ Ha) as [(o & th & Hin & (u1 & p1 & i1 & s1 & -> & ->))%Hd Hn]. simpl in *. subst u1.
  unfold has_password in Hp. simpl in Hp. apply Hinj, app_string_inj in Hp as ->. eauto.
Qed.
Print Assumptions C87_login_sound.

(** So all who get a token for a user name get the same id, and used the same password. *)
Theorem C87_one_owner hash es w u p1 p2 u1 u2 i1 i2 :
  good_hash hash → history hash es w → (Login u p1, Done (Token u1 i1)) ∈ w_calls w → (Login u p2, Done (Token u2 i2)) ∈ w_calls w →
  i1 = i2 ∧ p1 = p2.
Proof.
  intros Hh Hr H1 H2. destruct (C87_login_sound _ _ _ _ _ _ _ Hh Hr H1) as (_ & s1 & _ & _ & Ha1).
  destruct (C87_login_sound _ _ _ _ _ _ _ Hh Hr H2) as (_ & s2 & _ & _ & Ha2).
  pose proof (account_unique _ _ _ _ Ha1 Ha2) as [= -> E ->]. split; [done|]. apply Hh in E. by apply app_string_inj in E.
Qed.
Print Assumptions C87_one_owner.

(** And no password is right for a user name that nobody tried to register. *)
Theorem C87_unregistered hash es w u p r :
  good_hash hash → history hash es w → (∀ o th, (o, th) ∈ w_calls w → ¬ registers o u) →
  ((Login u p, Done r) ∈ w_calls w ∨ (GetCreator u, Done r) ∈ w_calls w) → r = Failed.
Proof.
  intros [Hh _] Hr Hno Hin. destruct (inv_history _ _ _ _ Hh Hr) as (Hd & _ & Ht).
  assert (∀ d, ¬ account w u d) as Hna.
  { intros d [(o & th & Hin' & (u1 & p1 & i1 & s1 & -> & ->))%Hd Hn]%account_doc. simpl in Hn. subst. eapply Hno; [done|]. by eexists _, _, _. }
  destruct Hin as [Hin%Ht|Hin%Ht]; simpl in Hin.
  - destruct Hin as [?|[[= ->]|[?|[?|(d & Ha & _)]]]]; try done. by destruct (Hna d).
  - destruct Hin as [?|[[= ->]|[?|[?|(d & Ha & _)]]]]; try done. by destruct (Hna d).
Qed.
Print Assumptions C87_unregistered.

(** A creator carries the name that was asked for and the id of its account. *)
Theorem C87_creator_sound hash es w u u' i :
  good_hash hash → history hash es w → (GetCreator u, Done (Creator u' i)) ∈ w_calls w →
  u' = u ∧ ∃ p s th, (Register u p i s, th) ∈ w_calls w ∧ account w u (User u i (hash (p +:+ s)) s).
Proof.
  intros [Hh Hinj] Hr Hin. destruct (inv_history _ _ _ _ Hh Hr) as (Hd & _ & Ht).
  apply Ht in Hin as [?|[?|[?|[?|(d & Ha & [?|[= -> ->]])]]]]; try done. split; [done|].
  destruct (account_doc _ _ _ Ha) as [(o & th & Hin & (u1 & p1 & i1 & s1 & -> & ->))%Hd Hn]. simpl in *. subst u1. eauto.
Qed.
Print Assumptions C87_creator_sound.

(** Each call asks at most three backends before it ends. *)
Theorem C87_ends hash P o w w1 es w2 :
  step hash (Start o) w = Some w1 → run hash P w1 es w2 →
  ∃ th, w_calls w2 !! length (w_calls w) = Some (o, th) ∧ ((3 ≤ steps_of (length (w_calls w)) es)%nat → th = Gone ∨ ∃ r, th = Done r).
Proof.
  intros Hs Hr. destruct (own_start _ _ _ _ Hs) as [Ht _].
  destruct (calls_end hash P _ _ _ _ _ _ Hr Ht) as (th & Hth & Hf).
  { intros p Hp. destruct o; simpl in Hp; injection Hp as <-; apply (fuel_program hash (Login u pwd)) || apply (fuel_program hash (GetCreator u)) || apply (fuel_program hash (Register u pwd id salt)). }
  exists th. split; [done|]. intros H3. destruct th as [p|r|]; [|by eauto|by left].
  destruct (Hf p eq_refl) as (n & Hn & Hfu). assert (n = 0)%nat as -> by lia. inversion Hfu; subst.
  exfalso. clear -Hr Hth Ht. assert (∀ r, w_calls w2 !! length (w_calls w) ≠ Some (o, Running (Ret r))) as H; [|by eapply H].
  clear Hth. assert (∀ r, settle (program hash o) ≠ Running (Ret r)) as H0 by by destruct o.
  remember (settle (program hash o)) as th0 eqn:E0. clear E0.
  assert (∃ th, w_calls w2 !! length (w_calls w) = Some (o, th) ∧ ∀ r, th ≠ Running (Ret r)) as (th & Hth & Hn); [|intros r' ?; eapply (Hn r'); congruence].
  induction Hr as [|w' es w3 e w4 Hr IH _ Hs]; [eauto|]. destruct IH as (th & Hth & Hn); [done|].
  destruct (own_step _ _ _ _ _ _ _ Hs Hth) as [[E _]|[(p & f & -> & -> & E & _)|(p & -> & -> & E)]]; [eauto|..|eauto].
  eexists. split; [exact E|]. intros r'. by destruct (exec p f w3).1.
Qed.
Print Assumptions C87_ends.

(** A login that starts when there is an account, and is served by its backends, gives a token for the right password and an error for any other. *)
Theorem C87_login_complete hash es w u p d w1 es' w2 r :
  good_hash hash → history hash es w → account w u d →
  step hash (Start (Login u p)) w = Some w1 → run hash (λ _, works_for (length (w_calls w))) w1 es' w2 →
  w_calls w2 !! length (w_calls w) = Some (Login u p, Done r) →
  (has_password hash d p → r = Token u (us_id d)) ∧ (¬ has_password hash d p → r = Failed).
Proof.
  intros [Hh _] Hr Ha Hs Hr' Hd. destruct (login_complete hash _ _ _ _ _ _ _ Hh (inv_history _ _ _ _ Hh Hr) Ha Hs Hr') as (th & Ht & H).
  rewrite Hd in Ht. injection Ht as <-. by apply H.
Qed.
Print Assumptions C87_login_complete.

Theorem C87_creator_complete hash es w u d w1 es' w2 r :
  good_hash hash → history hash es w → account w u d →
  step hash (Start (GetCreator u)) w = Some w1 → run hash (λ _, works_for (length (w_calls w))) w1 es' w2 →
  w_calls w2 !! length (w_calls w) = Some (GetCreator u, Done r) → r = Creator u (us_id d).
Proof.
  intros [Hh _] Hr Ha Hs Hr' Hd. destruct (creator_complete hash _ _ _ _ _ _ Hh (inv_history _ _ _ _ Hh Hr) Ha Hs Hr') as (th & Ht & H).
  rewrite Hd in Ht. injection Ht as <-. by apply H.
Qed.
Print Assumptions C87_creator_complete.

(** A registration that is acknowledged stored the user, with that id, and put the id in the social graph. *)
Theorem C87_register_ok hash es w u p i s :
  good_hash hash → history hash es w → (Register u p i s, Done Ok) ∈ w_calls w →
  User u i (hash (p +:+ s)) s ∈ w_docs w ∧ i ∈ w_graph w.
Proof.
  intros [Hh _] Hr Hin. destruct (inv_history _ _ _ _ Hh Hr) as (_ & _ & Ht).
  apply Ht in Hin as [?|[?|[?|[?|[? [?|[_ ?]]]]]]]; done.
Qed.
Print Assumptions C87_register_ok.

(** A registration of a name that has an account is never acknowledged. *)
Theorem C87_taken hash P u p i s w d w1 es w2 :
  account w u d → step hash (Start (Register u p i s)) w = Some w1 → run hash P w1 es w2 →
  account w2 u d ∧ w_calls w2 !! length (w_calls w) ≠ Some (Register u p i s, Done Ok).
Proof.
  intros Ha Hs Hr. split.
  - destruct (run_docs _ _ _ _ _ Hr) as [Hd _]. destruct (own_start _ _ _ _ Hs) as [_ E]. eapply account_grows; [|done]. by rewrite <-E.
  - destruct (taken_run hash P _ _ _ _ _ _ _ _ _ Ha Hs Hr) as (th & -> & [->|[->| ->]]); done.
Qed.
Print Assumptions C87_taken.

(** If no two calls register the same name at the same time: a name has one account at most, at most one registration of it is acknowledged, and
    what was acknowledged is the account. *)
Theorem C87_unique hash es w :
  good_hash hash → run hash exclusive started es w →
  NoDup (us_name <$> w_docs w) ∧
  (∀ t1 t2 u p1 p2 i1 i2 s1 s2, w_calls w !! t1 = Some (Register u p1 i1 s1, Done Ok) → w_calls w !! t2 = Some (Register u p2 i2 s2, Done Ok) → t1 = t2) ∧
  ∀ u p i s, (Register u p i s, Done Ok) ∈ w_calls w → account w u (User u i (hash (p +:+ s)) s).
Proof.
  intros [Hh _] Hr. destruct (xinv_run _ _ _ Hh Hr) as [(_ & _ & Ht) (_ & _ & Hn & Hp)]. split; [done|]. split.
  - intros t1 t2 u p1 p2 i1 i2 s1 s2 H1 H2. apply (Hp t1 t2 u).
    + eexists _, _. split; [exact H1|]. split; [by eexists _, _, _|by left].
    + eexists _, _. split; [exact H2|]. split; [by eexists _, _, _|by left].
  - intros u p i s Hin%Ht. destruct Hin as [?|[?|[?|[?|[Hd _]]]]]; try done. by apply (unique_account w _ Hn) in Hd.
Qed.
Print Assumptions C87_unique.

(** And the registration of a free name, served by its backends, is acknowledged. *)
Theorem C87_register_complete hash es w u p i s w1 es' w2 r :
  good_hash hash → history hash es w → (∀ d, d ∈ w_docs w → us_name d ≠ u) →
  exclusive w (Start (Register u p i s)) → step hash (Start (Register u p i s)) w = Some w1 →
  run hash (λ w e, exclusive w e ∧ works_for (length (w_calls w1) - 1) e) w1 es' w2 →
  w_calls w2 !! length (w_calls w) = Some (Register u p i s, Done r) → r = Ok.
Proof.
  intros [Hh _] Hr Hn Hx Hs Hr' Hd.
  destruct (register_complete hash _ _ _ _ _ _ _ _ Hh (inv_history _ _ _ _ Hh Hr) Hn Hx Hs Hr') as (th & Ht & H).
  rewrite Hd in Ht. injection Ht as <-. by apply H.
Qed.
Print Assumptions C87_register_complete.

(** ** What does not hold *)
Fixpoint play (hash : string → string) (es : list event) (w : world) : option world :=
  match es with [] => Some w | e :: es => w' ← step hash e w; play hash es w' end.
Lemma play_app hash es e w w1 : play hash es w = Some w1 → play hash (es ++ [e]) w = step hash e w1.
Proof.
  revert w. induction es as [|e' es IH]; intros w; simpl; [intros [= ->]; by destruct (step hash e w1)|].
  intros (w' & E & H)%bind_Some. rewrite E. simpl. by apply IH.
Qed.
Lemma play_run hash (P : world → event → Prop) es w w' :
  play hash es w = Some w' → (∀ es1 e es2 wa, es = es1 ++ e :: es2 → play hash es1 w = Some wa → P wa e) → run hash P w es w'.
Proof.
  revert w'. induction es as [|e es IH] using rev_ind; intros w' H HP; [injection H as <-; constructor|].
  assert (∃ w1, play hash es w = Some w1) as [w1 H1].
  { clear -H. revert w H. induction es as [|e' es IH]; intros w; simpl; [eauto|]. intros (w1 & -> & H)%bind_Some. simpl. by apply IH. }
  rewrite (play_app _ _ _ _ _ H1) in H. econstructor; [apply IH; [done|]|by eapply (HP es e [])|done].
  intros es1 e1 es2 wa E. apply (HP es1 e1 (es2 ++ [e]) wa). rewrite E, <-app_assoc. done.
Qed.

(** Histories without overlapping registrations, computed *)
Definition overlap (u : string) (c : op * thread) : bool :=
  match c with (Register u' _ _ _, Running _) => bool_decide (u' = u) | _ => false end.
Definition excl (w : world) (e : event) : bool :=
  match e with Start (Register u _ _ _) => negb (existsb (overlap u) (w_calls w)) | _ => true end.
Fixpoint playx (hash : string → string) (es : list event) (w : world) : option world :=
  match es with [] => Some w | e :: es => if excl w e then w' ← step hash e w; playx hash es w' else None end.
Lemma excl_ok w e : excl w e = true → exclusive w e.
Proof.
  destruct e as [[| |u p i s]| | |]; try done. simpl. intros H%negb_true_iff o q Hin (p' & i' & s' & ->).
  assert (existsb (overlap u) (w_calls w) = true); [|congruence]. apply existsb_exists. exists (Register u p' i' s', Running q).
  split; [by apply elem_of_list_In|]. simpl. by apply bool_decide_eq_true.
Qed.
Lemma run_cons hash (P : world → event → Prop) e w w1 es w2 : P w e → step hash e w = Some w1 → run hash P w1 es w2 → run hash P w (e :: es) w2.
Proof.
  intros Hp Hs. induction 1 as [w1|w1 es wa e' wb Hr IH Hp' Hs'].
  - apply (run_snoc _ _ w [] w e w1); [constructor|done|done].
  - rewrite app_comm_cons. econstructor; [by apply IH|done|done].
Qed.
Lemma playx_run hash es w w' : playx hash es w = Some w' → run hash exclusive w es w'.
Proof.
  revert w. induction es as [|e es IH]; intros w; cbn [playx]; [intros [= <-]; constructor|].
  destruct (excl w e) eqn:Ex; [|done]. intros (w1 & Hs & Hp)%bind_Some. eapply run_cons; [by apply excl_ok|done|by apply IH].
Qed.

(** Two registrations of a name at the same time: everything works and both are acknowledged, but the second can never log in. *)
Theorem C87_race_refuted hash :
  good_hash hash → ∃ es w, history hash es w ∧ (∀ t f, Step t f ∈ es → f = Fine) ∧
    w_calls w = [(Register "ann" "p" 1 "x", Done Ok); (Register "ann" "q" 2 "y", Done Ok)] ∧
    ∀ es' w' u i, run hash (λ _ _, True) w es' w' → (Login "ann" "q", Done (Token u i)) ∉ w_calls w'.
Proof.
  intros Hh. set (es := [Start (Register "ann" "p" 1 "x"); Start (Register "ann" "q" 2 "y"); Step 0 Fine; Step 1 Fine; Step 0 Fine; Step 0 Fine; Step 1 Fine; Step 1 Fine]).
  destruct (play hash es started) as [w|] eqn:E; [|done]. exists es, w.
  assert (history hash es w) as Hr by by apply play_run. split; [done|].
  split; [intros t f Hin; unfold es in Hin; rewrite !elem_of_cons, elem_of_nil in Hin; naive_solver|].
  cbv in E. injection E as <-. split; [done|]. intros es' w' u i Hr' Hin.
  assert (history hash (es ++ es') w') as Hr2.
  { clear -Hr Hr'. revert Hr. set (w0 := World _ _ _ _) in Hr'. fold w0. clearbody w0. intros Hr. induction Hr' as [|w0 es' w1 e w2 _ IH ? ?]; [by rewrite app_nil_r|].
    rewrite app_assoc. econstructor; [by apply IH|done|done]. }
  destruct (C87_login_sound _ _ _ _ _ _ _ Hh Hr2 Hin) as (_ & s & _ & _ & Ha).
  assert (account w' "ann" (User "ann" 1 (hash "px") "x")) as Ha'.
  { destruct (run_docs _ _ _ _ _ Hr') as [Hd _]. eapply account_grows; [exact Hd|]. exists [], [User "ann" 2 (hash "qy") "y"]. split; [done|]. split; [done|]. intros ? []%elem_of_nil. }
  pose proof (account_unique _ _ _ _ Ha Ha') as [= _ E ->]. apply Hh in E. by vm_compute in E.
Qed.
Print Assumptions C87_race_refuted.

(** "Returns an error if the userID is already taken": it does not. *)
Theorem C87_taken_id_refuted hash :
  ∃ es w, run hash exclusive started es w ∧ (∀ t f, Step t f ∈ es → f = Fine) ∧
    w_calls w = [(Register "ann" "p" 1 "x", Done Ok); (Register "bob" "q" 1 "y", Done Ok)].
Proof.
  set (es := [Start (Register "ann" "p" 1 "x"); Step 0 Fine; Step 0 Fine; Step 0 Fine; Start (Register "bob" "q" 1 "y"); Step 1 Fine; Step 1 Fine; Step 1 Fine]).
  destruct (playx hash es started) as [w|] eqn:E; [|done]. exists es, w.
  split; [|split].
  - by apply playx_run.
  - intros t f Hin; unfold es in Hin; rewrite !elem_of_cons, elem_of_nil in Hin; naive_solver.
  - cbv in E. by injection E as <-.
Qed.
Print Assumptions C87_taken_id_refuted.

(** A registration that fails can leave an account behind: the id is not in the social graph, the name can never be registered again, and
    the password works. *)
Theorem C87_failed_register_refuted hash :
  good_hash hash → ∃ es w, history hash es w ∧ w_calls w = [(Register "ann" "p" 1 "x", Done Failed)] ∧ w_graph w = [] ∧
    (∀ p i s w1 es' w2, step hash (Start (Register "ann" p i s)) w = Some w1 → run hash (λ _ _, True) w1 es' w2 → w_calls w2 !! 1%nat ≠ Some (Register "ann" p i s, Done Ok)) ∧
    ∀ w1 es' w2 r, step hash (Start (Login "ann" "p")) w = Some w1 → run hash (λ _, works_for 1) w1 es' w2 → w_calls w2 !! 1%nat = Some (Login "ann" "p", Done r) → r = Token "ann" 1.
Proof.
  intros Hh. set (es := [Start (Register "ann" "p" 1 "x"); Step 0 Fine; Step 0 Fine; Step 0 Refused]).
  destruct (play hash es started) as [w|] eqn:E; [|done]. exists es, w. assert (history hash es w) as Hr by by apply play_run.
  split; [done|]. cbv in E. assert (account w "ann" (User "ann" 1 (hash ("p" +:+ "x")) "x")) as Ha.
  { injection E as <-. exists [], []. split; [done|]. split; [done|]. intros ? []%elem_of_nil. }
  assert (length (w_calls w) = 1%nat) as El by by injection E as <-.
  split; [by injection E as <-|]. split; [by injection E as <-|]. split.
  - intros p i s w1 es' w2 Hs Hr'. rewrite <-El. by eapply C87_taken.
  - intros w1 es' w2 r Hs Hr' Hd. rewrite <-El in Hr', Hd.
    by destruct (C87_login_complete hash es w "ann" "p" _ w1 es' w2 r Hh Hr Ha Hs Hr' Hd) as [H _]; apply H.
Qed.
Print Assumptions C87_failed_register_refuted.

(** ** A concrete case: a registration, a wrong and two right logins (the second from the cache), a creator, an eviction *)
Definition demo_hash (x : string) : string := String (Ascii.ascii_of_nat 104) x.
Example C87_nonvacuous :
  good_hash demo_hash ∧ ∃ w, run demo_hash exclusive started
    [Start (Register "ann" "p" 1 "x"); Step 0 Fine; Step 0 Fine; Step 0 Fine;
     Start (Login "ann" "q"); Step 1 Fine; Step 1 Fine; Start (Login "ann" "p"); Step 2 Refused; Step 2 Fine; Step 2 Fine; Start (Login "ann" "p"); Step 3 Fine; Step 3 Lost;
     Start (GetCreator "ann"); Step 4 Fine; Step 4 Fine; Step 4 Fine; Evict "ann:Login"; Start (Register "ann" "z" 2 "y"); Step 5 Fine; Start (Login "bob" ""); Step 6 Fine; Kill 6] w ∧
    w_calls w = [(Register "ann" "p" 1 "x", Done Ok); (Login "ann" "q", Done Failed); (Login "ann" "p", Done (Token "ann" 1)); (Login "ann" "p", Done Failed);
      (GetCreator "ann", Done (Creator "ann" 1)); (Register "ann" "z" 2 "y", Done Failed); (Login "bob" "", Gone)] ∧
    w_cache w !! "ann:UserID" = Some (VId 1) ∧ w_cache w !! "ann:Login" = None ∧ account w "ann" (User "ann" 1 "hpx" "x").
Proof.
  split; [split; [done|by intros x y [=]]|].
  eexists. split; [apply playx_run; vm_compute; reflexivity|].
  split; [done|]. split; [vm_compute; reflexivity|]. split; [vm_compute; reflexivity|]. exists [], []. split; [done|]. split; [done|]. intros ? []%elem_of_nil.
Qed.
