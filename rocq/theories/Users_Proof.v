From Verif Require Import Users_Model Users_Spec.
From stdpp Require Import list.
Set Default Proof Using "Type".
Open Scope Z_scope.

(** ** Keys *)
Fixpoint chars (s : string) : list Ascii.ascii := match s with EmptyString => [] | String c s => c :: chars s end.
Lemma chars_app s t : chars (s +:+ t) = chars s ++ chars t.
Proof. induction s as [|c s IH]; [done|]. cbn [chars String.append]. change (String c s +:+ t) with (String c (s +:+ t)). cbn [chars]. by rewrite IH. Qed.
Lemma chars_inj s t : chars s = chars t → s = t.
Proof. revert t. induction s as [|c s IH]; intros [|c' t]; try done. cbn [chars]. intros [= -> H]. f_equal. by apply IH. Qed.
Lemma app_string_inj s t x : s +:+ x = t +:+ x → s = t.
Proof. intros H. apply chars_inj. apply (f_equal chars) in H. rewrite !chars_app in H. by apply app_inv_tail in H. Qed.
Lemma login_key_inj u v : login_key u = login_key v → u = v.
Proof. apply app_string_inj. Qed.
Lemma id_key_inj u v : id_key u = id_key v → u = v.
Proof. apply app_string_inj. Qed.
Lemma keys_differ u v : login_key u ≠ id_key v.
Proof.
  intros H. apply (f_equal chars) in H. unfold login_key, id_key in H. rewrite !chars_app in H.
  apply (f_equal reverse) in H. rewrite !reverse_app in H. vm_compute (reverse (chars _)) in H.
  change (reverse (chars ":Login")) with (reverse (chars "Login") ++ chars ":") in H. done.
Qed.

(** ** Accounts *)
Lemma account_find w u d : account w u d ↔ find_user (w_docs w) u = Some d.
Proof.
  unfold account, find_user. induction (w_docs w) as [|d' l IH].
  - split; [intros ([] & ? & ? & _); done|done].
  - rewrite filter_cons. destruct (decide (us_name d' = u)) as [E|E]; simpl.
    + split; [|intros [= <-]; exists [], l; split; [done|]; split; [done|]; intros ? []%elem_of_nil].
      intros ([|x l1] & l2 & H & Hn & Hl); [by injection H as [= -> ->]|]. injection H as [= -> _]. destruct (Hl x); [by left|done].
    + rewrite <-IH. split.
      * intros ([|x l1] & l2 & H & Hn & Hl); [by injection H as [= -> ->]|]. injection H as [= -> ->].
        exists l1, l2. split; [done|]. split; [done|]. intros ? ?. apply Hl. by right.
      * intros (l1 & l2 & -> & Hn & Hl). exists (d' :: l1), l2. split; [done|]. split; [done|].
        intros x [->|?]%elem_of_cons; [done|by apply Hl].
Qed.
Lemma account_unique w u d d' : account w u d → account w u d' → d = d'.
Proof. rewrite !account_find. congruence. Qed.
Lemma account_grows w w' u d : w_docs w `prefix_of` w_docs w' → account w u d → account w' u d.
Proof. intros [l E] (l1 & l2 & H & ? & ?). exists l1, (l2 ++ l). split; [|done]. rewrite E, H, <-app_assoc. done. Qed.
Lemma account_doc w u d : account w u d → d ∈ w_docs w ∧ us_name d = u.
Proof. intros (l1 & l2 & -> & ? & _). split; [|done]. apply elem_of_app. right. by left. Qed.
Lemma doc_account w d : d ∈ w_docs w → ∃ d', account w (us_name d) d'.
Proof.
  intros H. destruct (find_user (w_docs w) (us_name d)) as [d'|] eqn:E; [exists d'; by apply account_find|].
  unfold find_user in E. apply head_None in E. assert (d ∈ filter (λ x, us_name x = us_name d) (w_docs w)) by by apply elem_of_list_filter.
  rewrite E in H0. by apply elem_of_nil in H0.
Qed.

(** ** Steps *)
Section hash.
  Context (hash : string → string).
  Lemma exec_calls p f w : w_calls (exec p f w).2 = w_calls w.
  Proof. destruct p; simpl; try done; by destruct f. Qed.
  Lemma exec_docs p f w : w_docs w `prefix_of` w_docs (exec p f w).2.
  Proof. destruct p; simpl; try done; destruct f; simpl; try done; by apply prefix_app_r. Qed.
  Lemma exec_graph p f w : w_graph w `prefix_of` w_graph (exec p f w).2.
  Proof. destruct p; simpl; try done; destruct f; simpl; try done; by apply prefix_app_r. Qed.
  Lemma step_docs e w w' : step hash e w = Some w' → w_docs w `prefix_of` w_docs w' ∧ w_graph w `prefix_of` w_graph w'.
  Proof.
    destruct e as [o|t f|t|k]; simpl.
    - by intros [= <-].
    - destruct (w_calls w !! t) as [[o [p| |]]|]; try done. destruct (exec p f w) as [p' w1] eqn:E. intros [= <-]. simpl.
      pose proof (exec_docs p f w). pose proof (exec_graph p f w). by rewrite E in *.
    - destruct (w_calls w !! t) as [[o [p| |]]|]; try done. by intros [= <-].
    - by intros [= <-].
  Qed.
  (** What a step does to the calls *)
  Inductive moved (w w' : world) : Prop :=
    | Mstart o : w_calls w' = w_calls w ++ [(o, settle (program hash o))] → w_cache w' = w_cache w → w_docs w' = w_docs w → w_graph w' = w_graph w → moved w w'
    | Mstep t o p f : w_calls w !! t = Some (o, Running p) → w_calls w' = <[t := (o, settle (exec p f w).1)]> (w_calls w) →
        w_cache w' = w_cache (exec p f w).2 → w_docs w' = w_docs (exec p f w).2 → w_graph w' = w_graph (exec p f w).2 → moved w w'
    | Mkill t o p : w_calls w !! t = Some (o, Running p) → w_calls w' = <[t := (o, Gone)]> (w_calls w) → w_cache w' = w_cache w → w_docs w' = w_docs w → w_graph w' = w_graph w → moved w w'
    | Mevict k : w_calls w' = w_calls w → w_cache w' = delete k (w_cache w) → w_docs w' = w_docs w → w_graph w' = w_graph w → moved w w'.
  Lemma step_moved e w w' : step hash e w = Some w' → moved w w'.
  Proof.
    destruct e as [o|t f|t|k]; simpl.
    - intros [= <-]. by eapply (Mstart _ _ o).
    - destruct (w_calls w !! t) as [[o [p| |]]|] eqn:Ht; try done. destruct (exec p f w) as [p' w1] eqn:E. intros [= <-].
      eapply (Mstep _ _ t o p f); [done|..]; simpl; by rewrite ?E.
    - destruct (w_calls w !! t) as [[o [p| |]]|] eqn:Ht; try done. intros [= <-]. by eapply (Mkill _ _ t o p).
    - intros [= <-]. by eapply (Mevict _ _ k).
  Qed.

  (** ** The invariant *)
  Definition docs_ok (w : world) : Prop := ∀ d, d ∈ w_docs w → ∃ o th, (o, th) ∈ w_calls w ∧ made_by hash o d.
  Definition cache_ok (w : world) : Prop := ∀ k v, w_cache w !! k = Some v → ∃ u d, account w u d ∧
    (k = login_key u ∧ v = VLogin (us_id d) (us_hash d) (us_salt d) ∨ k = id_key u ∧ v = VId (us_id d)).
  Definition thread_ok (w : world) (o : op) (th : thread) : Prop :=
    match o with
    | Login u p =>
        th = Gone ∨ th = Done Failed ∨ th = Running (login hash u p) ∨ th = Running (lookup_login hash u p) ∨
        ∃ d, account w u d ∧ has_password hash d p ∧
          (th = Running (CPut (login_key u) (VLogin (us_id d) (us_hash d) (us_salt d)) (Ret (Token u (us_id d)))) ∨ th = Done (Token u (us_id d)))
    | GetCreator u =>
        th = Gone ∨ th = Done Failed ∨ th = Running (get_creator u) ∨ th = Running (lookup_creator u) ∨
        ∃ d, account w u d ∧ (th = Running (CPut (id_key u) (VId (us_id d)) (Ret (Creator u (us_id d)))) ∨ th = Done (Creator u (us_id d)))
    | Register u p i s =>
        th = Gone ∨ th = Done Failed ∨ th = Running (register hash u p i s) ∨ th = Running (DIns (new_user hash u p i s) (Graph i (Ret Ok))) ∨
        (new_user hash u p i s ∈ w_docs w ∧ (th = Running (Graph i (Ret Ok)) ∨ th = Done Ok ∧ i ∈ w_graph w))
    end.
  Definition inv (w : world) : Prop := docs_ok w ∧ cache_ok w ∧ ∀ o th, (o, th) ∈ w_calls w → thread_ok w o th.

  Lemma thread_ok_grows w w' o th : w_docs w `prefix_of` w_docs w' → w_graph w `prefix_of` w_graph w' → thread_ok w o th → thread_ok w' o th.
  Proof.
    intros Hd Hg. destruct o; simpl.
    - intros [?|[?|[?|[?|(d & ? & ? & ?)]]]]; auto. do 4 right. exists d. split; [by eapply account_grows|done].
    - intros [?|[?|[?|[?|(d & ? & ?)]]]]; auto. do 4 right. exists d. split; [by eapply account_grows|done].
    - intros [?|[?|[?|[?|[? H]]]]]; auto. do 4 right. destruct Hd as [l ->], Hg as [l' ->].
      split; [apply elem_of_app; by left|]. destruct H as [?|[? ?]]; [by left|right]. split; [done|]. apply elem_of_app; by left.
  Qed.
  Lemma thread_start w o : thread_ok w o (settle (program hash o)).
  Proof. destruct o; simpl; auto. Qed.

  (** A step of a call keeps its shape *)
  Lemma thread_step w o p f (w' := (exec p f w).2) :
    (∀ x, hash x ≠ "") → cache_ok w → thread_ok w o (Running p) → thread_ok w' o (settle (exec p f w).1).
  Proof.
    intros Hh Hc Ht. destruct o as [u pw|u|u pw i s]; simpl in Ht.
    - assert (∀ (o : option user), (∀ d, o = Some d → account w u d) → ∀ w'', w_docs w'' = w_docs w →
        thread_ok w'' (Login u pw) (settle match o with Some d => check hash u pw (us_id d) (us_hash d) (us_salt d) | None => check hash u pw 0 "" "" end)) as Hck.
      { intros o Ho w'' Ew. unfold check. destruct o as [d|].
        - case_bool_decide as E; simpl; [|auto]. do 4 right. exists d.
          split; [eapply account_grows; [|by apply Ho]; by rewrite Ew|]. split; [done|]. by left.
        - case_bool_decide as E; simpl; [|auto]. by destruct (Hh (pw +:+ "")). }
      destruct Ht as [?|[?|[[= ->]|[[= ->]|(d & Ha & Hp & [[= ->]|?])]]]]; try done.
      + subst w'. simpl. destruct (fine f); [|simpl; auto 6]. destruct (w_cache w !! login_key u) as [v|] eqn:E; [|simpl; auto 6].
        destruct (Hc _ _ E) as (u' & d & Ha & [[Hk ->]|[Hk ->]]); [|by destruct (keys_differ u u')].
        apply login_key_inj in Hk as <-. destruct (us_id d =? -1); [simpl; auto 6|].
        apply (Hck (Some d)); [|done]. by intros ? [= <-].
      + subst w'. simpl. destruct (fine f); [|simpl; auto 6]. apply Hck; [|done]. intros d Hd. by apply account_find.
      + subst w'. simpl. destruct f; simpl; [|auto..]. do 4 right. exists d. split; [done|]. split; [done|]. by right.
    - destruct Ht as [?|[?|[[= ->]|[[= ->]|(d & Ha & [[= ->]|?])]]]]; try done.
      + subst w'. simpl. destruct (fine f); [|simpl; auto 6]. destruct (w_cache w !! id_key u) as [v|] eqn:E; [|simpl; auto 6].
        destruct (Hc _ _ E) as (u' & d & Ha & [[Hk ->]|[Hk ->]]); [by destruct (keys_differ u' u)|].
        apply id_key_inj in Hk as <-. destruct (us_id d =? -1); [simpl; auto 6|]. simpl. do 4 right. exists d. auto.
      + subst w'. simpl. destruct (fine f); [|simpl; auto 6]. destruct (find_user (w_docs w) u) as [d|] eqn:E; [|simpl; auto 6].
        simpl. do 4 right. exists d. split; [by apply account_find|]. by left.
      + subst w'. simpl. destruct f; simpl; [|auto..]. do 4 right. exists d. auto.
    - destruct Ht as [?|[?|[[= ->]|[[= ->]|[Ha [[= ->]|[? _]]]]]]]; try done.
      + subst w'. simpl. destruct (fine f); [|simpl; auto 6]. destruct (find_user (w_docs w) u) as [d|] eqn:E; simpl; auto 6.
      + subst w'. simpl. destruct f; simpl; [|auto..]. do 4 right. split; [|by left]. apply elem_of_app. right. by left.
      + subst w'. simpl. destruct f; simpl; [|auto..]. do 4 right. split; [done|]. right. split; [done|]. apply elem_of_app. right. by left.
  Qed.
  Lemma inv_started : inv started.
  Proof. split; [intros ? []%elem_of_nil|]. split; [intros k v H; cbn [w_cache started] in H; by rewrite lookup_empty in H|]. intros ? ? []%elem_of_nil. Qed.
  Lemma calls_update (l : list (op * thread)) t o th th' o' th1 : l !! t = Some (o, th) → (o', th1) ∈ <[t := (o, th')]> l → (o', th1) = (o, th') ∨ (o', th1) ∈ l.
  Proof.
    intros H [j Hj]%elem_of_list_lookup. destruct (decide (t = j)) as [->|].
    - rewrite list_lookup_insert in Hj by by eapply lookup_lt_Some. left. congruence.
    - rewrite list_lookup_insert_ne in Hj by done. right. by eapply elem_of_list_lookup_2.
  Qed.
  Lemma call_kept (l : list (op * thread)) t o th th' o' th1 : l !! t = Some (o, th) → (o', th1) ∈ l → ∃ th2, (o', th2) ∈ <[t := (o, th')]> l.
  Proof.
    intros H [j Hj]%elem_of_list_lookup. destruct (decide (t = j)) as [->|].
    - exists th'. apply elem_of_list_lookup. exists j. rewrite list_lookup_insert by by eapply lookup_lt_Some. congruence.
    - exists th1. apply elem_of_list_lookup. exists j. by rewrite list_lookup_insert_ne.
  Qed.
  Lemma cache_ok_grows w w' : w_docs w `prefix_of` w_docs w' → (∀ k v, w_cache w' !! k = Some v → w_cache w !! k = Some v) → cache_ok w → cache_ok w'.
  Proof. intros Hd Hc H k v Hk. destruct (H k v (Hc _ _ Hk)) as (u & d & ? & ?). exists u, d. split; [by eapply account_grows|done]. Qed.

  Lemma inv_step e w w' : (∀ x, hash x ≠ "") → inv w → step hash e w = Some w' → inv w'.
  Proof.
    intros Hh (Hd & Hc & Ht) Hs. destruct (step_docs _ _ _ Hs) as [Pd Pg].
    assert (∀ o th, (o, th) ∈ w_calls w → thread_ok w' o th) as Ht' by (intros; eapply thread_ok_grows; eauto).
    destruct (step_moved _ _ _ Hs) as [o E Ec Ed Eg|t o p f Ho E Ec Ed Eg|t o p Ho E Ec Ed Eg|k E Ec Ed Eg].
    - split; [|split].
      + intros d. rewrite Ed, E. intros (o' & th & ? & ?)%Hd. exists o', th. split; [apply elem_of_app; by left|done].
      + eapply cache_ok_grows; [done| |done]. by rewrite Ec.
      + intros o' th. rewrite E. intros [?|Hx%elem_of_list_singleton]%elem_of_app; [by apply Ht'|]. injection Hx as -> ->. apply thread_start.
    - assert (thread_ok w o (Running p)) as Hp by (apply Ht; by eapply elem_of_list_lookup_2).
      pose proof (thread_step w o p f Hh Hc Hp) as Hn. split; [|split].
      + intros d Hin. assert (d ∈ w_docs w ∨ made_by hash o d) as [(o' & th & H1 & ?)%Hd|Hm].
        { rewrite Ed in Hin. destruct p; simpl in Hin; auto; try (destruct f; by left).
          assert (d ∈ w_docs w ∨ d = d0) as [?| ->] by (destruct f; simpl in Hin; set_solver); [by left|]. right.
          destruct o as [u pw|u|u pw i s]; simpl in Hp.
          - by destruct Hp as [?|[?|[[= ?]|[[= ?]|(? & ? & ? & [[= ?]|?])]]]].
          - by destruct Hp as [?|[?|[[= ?]|[[= ?]|(? & ? & [[= ?]|?])]]]].
          - destruct Hp as [?|[?|[[= ?]|[[= -> ->]|(? & [[= ?]|[? ?]])]]]]; try done. by exists u, pw, i, s. }
        * destruct (call_kept _ _ _ _ (settle (exec p f w).1) _ _ Ho H1) as [th2 ?]. exists o', th2. by rewrite E.
        * exists o, (settle (exec p f w).1). split; [|done]. rewrite E. apply elem_of_list_lookup. exists t.
          apply list_lookup_insert. by eapply lookup_lt_Some.
      + intros k v Hk. rewrite Ec in Hk. assert (w_cache w !! k = Some v ∨ ∃ p', p = CPut k v p') as [H|[p' ->]].
        { destruct p; simpl in Hk; auto; try (destruct f; by left). destruct f; simpl in Hk; [|by left|].
          - apply lookup_insert_Some in Hk as [[-> ->]|[_ ?]]; [right; eauto|by left].
          - apply lookup_insert_Some in Hk as [[-> ->]|[_ ?]]; [right; eauto|by left]. }
        * destruct (Hc _ _ H) as (u & d & ? & ?). exists u, d. split; [by eapply account_grows|done].
        * destruct o as [u pw|u|u pw i s]; simpl in Hp.
          -- destruct Hp as [?|[?|[[= ?]|[[= ?]|(d & ? & ? & [[= -> -> _]|?])]]]]; try done.
             exists u, d. split; [by eapply account_grows|]. by left.
          -- destruct Hp as [?|[?|[[= ?]|[[= ?]|(d & ? & [[= -> -> _]|?])]]]]; try done.
             exists u, d. split; [by eapply account_grows|]. by right.
          -- by destruct Hp as [?|[?|[[= ?]|[[= ?]|(? & [[= ?]|[? ?]])]]]].
      + intros o' th. rewrite E. intros [[= -> ->]|?]%(calls_update _ _ _ _ _ _ _ Ho); [|by apply Ht'].
        eapply thread_ok_grows; [..|apply Hn]; by rewrite ?Ed, ?Eg.
    - split; [|split].
      + intros d. rewrite Ed, E. intros (o' & th & Hin & ?)%Hd. destruct (call_kept _ _ _ _ Gone _ _ Ho Hin) as [th2 ?]. eauto.
      + eapply cache_ok_grows; [done| |done]. by rewrite Ec.
      + intros o' th. rewrite E. intros [[= -> ->]|?]%(calls_update _ _ _ _ _ _ _ Ho); [|by apply Ht']. destruct o; by left.
    - split; [|split].
      + intros d. rewrite Ed, E. apply Hd.
      + eapply cache_ok_grows; [done| |done]. rewrite Ec. intros ? ? [_ ?]%lookup_delete_Some. done.
      + intros o' th. rewrite E. apply Ht'.
  Qed.
  Lemma inv_run P w es w' : (∀ x, hash x ≠ "") → inv w → run hash P w es w' → inv w'.
  Proof.
    intros Hh Hi Hr. revert Hi. induction Hr as [|w es w1 e w2 _ IH _ Hs]; intros Hi; [done|]. eapply inv_step; [done|by apply IH|done].
  Qed.
  Lemma inv_history P es w : (∀ x, hash x ≠ "") → run hash P started es w → inv w.
  Proof. intros Hh. apply inv_run; [done|]. apply inv_started. Qed.
  Lemma run_docs P w es w' : run hash P w es w' → w_docs w `prefix_of` w_docs w' ∧ w_graph w `prefix_of` w_graph w'.
  Proof. induction 1 as [|w es w1 e w2 _ [? ?] _ [? ?]%step_docs]; [done|]. split; by etrans. Qed.

  (** ** One call *)
  Lemma own_step t e w w' o th : step hash e w = Some w' → w_calls w !! t = Some (o, th) →
    (w_calls w' !! t = Some (o, th) ∧ ∀ f, e ≠ Step t f) ∨
    (∃ p f, e = Step t f ∧ th = Running p ∧ w_calls w' !! t = Some (o, settle (exec p f w).1) ∧ w_docs w' = w_docs (exec p f w).2) ∨
    (∃ p, e = Kill t ∧ th = Running p ∧ w_calls w' !! t = Some (o, Gone)).
  Proof.
    intros Hs Ht. assert (t < length (w_calls w))%nat as Hlt by by eapply lookup_lt_Some. destruct e as [o'|t' f|t'|k]; simpl in Hs.
    - injection Hs as <-. left. simpl. split; [|done]. by rewrite lookup_app_l.
    - destruct (w_calls w !! t') as [[o' [p| |]]|] eqn:Ht'; try done. destruct (exec p f w) as [p' w1] eqn:E. injection Hs as <-. simpl.
      destruct (decide (t' = t)) as [->|]; [|left; split; [by rewrite list_lookup_insert_ne|congruence]].
      assert (o' = o ∧ th = Running p) as [-> ->] by (split; congruence). right; left. exists p, f. rewrite list_lookup_insert by done. by rewrite E.
    - destruct (w_calls w !! t') as [[o' [p| |]]|] eqn:Ht'; try done. injection Hs as <-. simpl.
      destruct (decide (t' = t)) as [->|]; [|left; split; [by rewrite list_lookup_insert_ne|done]].
      assert (o' = o ∧ th = Running p) as [-> ->] by (split; congruence). right; right. exists p. by rewrite list_lookup_insert.
    - injection Hs as <-. by left.
  Qed.
  (** An invariant of one call whose backends work *)
  Lemma own_run (P : world → event → Prop) (I : world → thread → Prop) t o w es w' th :
    run hash P w es w' → (∀ w e, P w e → works_for t e) → (∀ x, hash x ≠ "") → inv w →
    w_calls w !! t = Some (o, th) → I w th →
    (∀ w1 e w2 th, inv w1 → w_docs w `prefix_of` w_docs w1 → P w1 e → step hash e w1 = Some w2 → w_calls w1 !! t = Some (o, th) → I w1 th → (∀ f, e ≠ Step t f) → I w2 th) →
    (∀ w1 w2 p, inv w1 → w_docs w `prefix_of` w_docs w1 → P w1 (Step t Fine) → step hash (Step t Fine) w1 = Some w2 → w_calls w1 !! t = Some (o, Running p) →
      w_docs w2 = w_docs (exec p Fine w1).2 → I w1 (Running p) → I w2 (settle (exec p Fine w1).1)) →
    ∃ th', w_calls w' !! t = Some (o, th') ∧ I w' th'.
  Proof.
    intros Hr HP Hh Hi Ht HI Hother Hown. induction Hr as [|w es w1 e w2 Hr IH Hp Hs]; [eauto|].
    destruct IH as (th1 & Ht1 & HI1); [done..|]. assert (inv w1) as Hi1 by by eapply inv_run. destruct (run_docs _ _ _ _ Hr) as [Hd _].
    destruct (own_step _ _ _ _ _ _ Hs Ht1) as [[E Hne]|[(p & f & -> & -> & E & Ed)|(p & -> & -> & E)]].
    - exists th1. split; [done|]. by eapply Hother.
    - pose proof (HP _ _ Hp eq_refl) as ->. eauto.
    - by destruct (HP _ _ Hp).
  Qed.

  Lemma own_start o w w1 : step hash (Start o) w = Some w1 →
    w_calls w1 !! length (w_calls w) = Some (o, settle (program hash o)) ∧ w_docs w1 = w_docs w.
  Proof. intros [= <-]. simpl. split; [|done]. by rewrite lookup_app_r, Nat.sub_diag by done. Qed.

  Lemma login_complete w u p w1 es w2 d : (∀ x, hash x ≠ "") → inv w → account w u d →
    step hash (Start (Login u p)) w = Some w1 → run hash (λ _, works_for (length (w_calls w))) w1 es w2 →
    ∃ th, w_calls w2 !! length (w_calls w) = Some (Login u p, th) ∧
      ∀ r, th = Done r → (has_password hash d p → r = Token u (us_id d)) ∧ (¬ has_password hash d p → r = Failed).
  Proof.
    intros Hh Hi Ha Hs Hr. destruct (own_start _ _ _ Hs) as [Ht Hd].
    assert (account w1 u d) as Ha1 by (eapply account_grows; [|done]; by rewrite Hd).
    set (t := length (w_calls w)) in *.
    edestruct (own_run _ (λ _ th, th = Running (login hash u p) ∨ th = Running (lookup_login hash u p) ∨ (¬ has_password hash d p ∧ th = Done Failed) ∨
      (has_password hash d p ∧ (th = Running (CPut (login_key u) (VLogin (us_id d) (us_hash d) (us_salt d)) (Ret (Token u (us_id d)))) ∨ th = Done (Token u (us_id d)))))
      t (Login u p) w1 es w2 (settle (program hash (Login u p))) Hr) as (th & Hth & HI); [done|done|by eapply inv_step|done|by left| | |].
    - done.
    - assert (∀ p0, p0 = check hash u p (us_id d) (us_hash d) (us_salt d) → let th := settle p0 in
        th = Running (login hash u p) ∨ th = Running (lookup_login hash u p) ∨ (¬ has_password hash d p ∧ th = Done Failed) ∨
        (has_password hash d p ∧ (th = Running (CPut (login_key u) (VLogin (us_id d) (us_hash d) (us_salt d)) (Ret (Token u (us_id d)))) ∨ th = Done (Token u (us_id d))))) as Hck.
      { intros p0 ->. unfold check, has_password. case_bool_decide as E; simpl; [do 3 right|do 2 right; left]; (split; [by rewrite E || congruence|auto]). }
      intros wa wb q (_ & Hc & _) Hp _ _ _ _ HI. assert (account wa u d) as Haa by by eapply account_grows.
      destruct HI as [[= ->]|[[= ->]|[[_ ?]|[Hpw [[= ->]|?]]]]]; try done.
      + simpl. destruct (w_cache wa !! login_key u) as [v|] eqn:E; [|auto].
        destruct (Hc _ _ E) as (u' & d' & Ha' & [[Hk ->]|[Hk ->]]); [|by destruct (keys_differ u u')].
        apply login_key_inj in Hk as <-. assert (d' = d) as -> by by eapply account_unique. destruct (us_id d =? -1); [auto|]. by apply Hck.
      + simpl. apply account_find in Haa. rewrite Haa. by apply Hck.
      + simpl. do 3 right. auto.
    - exists th. split; [done|]. intros r ->. destruct HI as [?|[?|[[? [= ->]]|[? [?|[= ->]]]]]]; try done.
  Qed.
  Lemma creator_complete w u w1 es w2 d : (∀ x, hash x ≠ "") → inv w → account w u d →
    step hash (Start (GetCreator u)) w = Some w1 → run hash (λ _, works_for (length (w_calls w))) w1 es w2 →
    ∃ th, w_calls w2 !! length (w_calls w) = Some (GetCreator u, th) ∧ ∀ r, th = Done r → r = Creator u (us_id d).
  Proof.
    intros Hh Hi Ha Hs Hr. destruct (own_start _ _ _ Hs) as [Ht Hd].
    assert (account w1 u d) as Ha1 by (eapply account_grows; [|done]; by rewrite Hd).
    set (t := length (w_calls w)) in *.
    edestruct (own_run _ (λ _ th, th = Running (get_creator u) ∨ th = Running (lookup_creator u) ∨
      th = Running (CPut (id_key u) (VId (us_id d)) (Ret (Creator u (us_id d)))) ∨ th = Done (Creator u (us_id d)))
      t (GetCreator u) w1 es w2 (settle (program hash (GetCreator u))) Hr) as (th & Hth & HI); [done|done|by eapply inv_step|done|by left| | |].
    - done.
    - intros wa wb q (_ & Hc & _) Hp _ _ _ _ HI. assert (account wa u d) as Haa by by eapply account_grows.
      destruct HI as [[= ->]|[[= ->]|[[= ->]|?]]]; try done.
      + simpl. destruct (w_cache wa !! id_key u) as [v|] eqn:E; [|auto].
        destruct (Hc _ _ E) as (u' & d' & Ha' & [[Hk ->]|[Hk ->]]); [by destruct (keys_differ u' u)|].
        apply id_key_inj in Hk as <-. assert (d' = d) as -> by by eapply account_unique. destruct (us_id d =? -1); simpl; auto.
      + simpl. apply account_find in Haa. rewrite Haa. simpl; auto.
      + simpl. auto.
    - exists th. split; [done|]. intros r ->. destruct HI as [?|[?|[?|[= ->]]]]; done.
  Qed.

  (** ** Registrations of a name that is taken *)
  Lemma taken_run P w u p i s w1 es w2 d : account w u d → step hash (Start (Register u p i s)) w = Some w1 → run hash P w1 es w2 →
    ∃ th, w_calls w2 !! length (w_calls w) = Some (Register u p i s, th) ∧ (th = Running (register hash u p i s) ∨ th = Done Failed ∨ th = Gone).
  Proof.
    intros Ha Hs Hr. destruct (own_start _ _ _ Hs) as [Ht Hd].
    assert (account w1 u d) as Ha1 by (eapply account_grows; [|done]; by rewrite Hd). clear Ha Hs Hd.
    induction Hr as [|w0 es wa e wb Hr IH Hp Hs]; [eauto|].
    destruct IH as (th & Hth & Hsh); [done..|]. destruct (own_step _ _ _ _ _ _ Hs Hth) as [[E _]|[(q & f & -> & -> & E & Ed)|(q & -> & -> & E)]].
    - eauto.
    - eexists. split; [exact E|]. destruct Hsh as [[= ->]|[?|?]]; try done. simpl.
      destruct (run_docs _ _ _ _ Hr) as [Hd _]. assert (account wa u d) as Haa by by eapply account_grows. apply account_find in Haa.
      rewrite Haa. destruct (fine f); simpl; auto.
    - eauto.
  Qed.

  (** ** Exclusive registration *)
  Definition past (w : world) (t : nat) (u : string) : Prop :=
    ∃ o th, w_calls w !! t = Some (o, th) ∧ registers o u ∧ (th = Done Ok ∨ ∃ i, th = Running (Graph i (Ret Ok))).
  Definition no_doc (w : world) (u : string) : Prop := ∀ d, d ∈ w_docs w → us_name d ≠ u.
  Definition xinv (w : world) : Prop :=
    (∀ t1 t2 o1 o2 q1 q2 u, w_calls w !! t1 = Some (o1, Running q1) → w_calls w !! t2 = Some (o2, Running q2) → registers o1 u → registers o2 u → t1 = t2) ∧
    (∀ t o d q u, w_calls w !! t = Some (o, Running (DIns d q)) → registers o u → no_doc w u) ∧
    NoDup (us_name <$> w_docs w) ∧
    (∀ t1 t2 u, past w t1 u → past w t2 u → t1 = t2).

  Lemma xinv_started : xinv started.
  Proof.
    split; [by intros ? ? ? ? ? ? ? H|]. split; [by intros ? ? ? ? ? H|]. split; [constructor|].
    intros t1 t2 u (o & th & H & _). by destruct t1.
  Qed.
  Lemma update_cases (l : list (op * thread)) t o th th' t' x : l !! t = Some (o, th) → <[t := (o, th')]> l !! t' = Some x →
    (t' = t ∧ x = (o, th')) ∨ (t' ≠ t ∧ l !! t' = Some x).
  Proof.
    intros H. destruct (decide (t' = t)) as [->|].
    - rewrite list_lookup_insert by by eapply lookup_lt_Some. intros [= <-]. by left.
    - rewrite list_lookup_insert_ne by done. by right.
  Qed.
  Lemma snoc_cases (l : list (op * thread)) x t y : (l ++ [x]) !! t = Some y → (t = length l ∧ y = x) ∨ l !! t = Some y.
  Proof. intros [H|[Hl H]]%lookup_app_Some; [by right|]. left. apply list_lookup_singleton_Some in H as [? ->]. split; [lia|done]. Qed.
  Lemma past_doc w t u : inv w → past w t u → ¬ no_doc w u.
  Proof.
    intros (_ & _ & Ht) (o & th & H & (p & i & s & ->) & Hth) Hn. apply elem_of_list_lookup_2 in H. apply Ht in H.
    assert (new_user hash u p i s ∈ w_docs w) as Hin; [|by eapply Hn].
    destruct H as [->|[->|[->|[->|[? _]]]]]; [..|done]; destruct Hth as [?|[? ?]]; done.
  Qed.
  Lemma find_none l u : find_user l u = None → ∀ d, d ∈ l → us_name d ≠ u.
  Proof.
    unfold find_user. intros H%head_None d Hd E. assert (d ∈ filter (λ x, us_name x = u) l) as Hx by by apply elem_of_list_filter.
    rewrite H in Hx. by apply elem_of_nil in Hx.
  Qed.
  Lemma xinv_step e w w' : inv w → xinv w → exclusive w e → step hash e w = Some w' → xinv w'.
  Proof.
    intros Hi (H1 & H2 & H3 & H4) Hx Hs. pose proof Hi as (_ & _ & Ht). destruct e as [o|t f|t|k]; simpl in Hs.
    - injection Hs as <-. unfold xinv, past, no_doc. simpl. split; [|split; [|split; [done|]]].
      + intros t1 t2 o1 o2 q1 q2 u [[-> [= -> E1]]|E1]%snoc_cases [[-> [= -> E2]]|E2]%snoc_cases R1 R2; [done|..|by eauto].
        * destruct R1 as (? & ? & ? & ->). simpl in Hx. by destruct (Hx o2 q2); [eapply elem_of_list_lookup_2|].
        * destruct R2 as (? & ? & ? & ->). simpl in Hx. by destruct (Hx o1 q1); [eapply elem_of_list_lookup_2|].
      + intros t o1 d q u [[-> [= -> E1]]|E1]%snoc_cases R; [|by eapply H2]. destruct R as (? & ? & ? & ->). done.
      + assert (∀ t1 u, past (set_calls w (w_calls w ++ [(o, settle (program hash o))])) t1 u → past w t1 u) as Hp.
        { intros t1 u (o1 & th & E & R & Hth). simpl in E. apply snoc_cases in E as [[-> [= -> ->]]|E]; [|by exists o1, th].
          destruct R as (? & ? & ? & ->). simpl in Hth. by destruct Hth as [?|[? ?]]. }
        intros t1 t2 u Ha Hb. eapply H4; by apply Hp.
    - destruct (w_calls w !! t) as [[o [p| |]]|] eqn:Hto; try done. destruct (exec p f w) as [p' w1] eqn:E. injection Hs as <-.
      pose proof (elem_of_list_lookup_2 _ _ _ Hto) as Hok%Ht.
      assert (w_calls w1 = w_calls w) as Hcw by (pose proof (exec_calls p f w) as X; by rewrite E in X).
      (* what the step does *)
      assert ((w_docs w1 = w_docs w ∧ (∀ d q, settle p' = Running (DIns d q) → ∀ u, registers o u → no_doc w u) ∧
               (∀ u, registers o u → (settle p' = Done Ok ∨ ∃ i, settle p' = Running (Graph i (Ret Ok))) → past w t u)) ∨
              (∃ u pw i s, o = Register u pw i s ∧ p = DIns (new_user hash u pw i s) (Graph i (Ret Ok)) ∧
                 w_docs w1 = w_docs w ++ [new_user hash u pw i s] ∧ (∀ d q, settle p' ≠ Running (DIns d q)))) as Hwhat.
      { destruct o as [u pw|u|u pw i s].
        - left. destruct Hok as [?|[?|[[= ->]|[[= ->]|(d & ? & ? & [[= ->]|?])]]]]; try done; simpl in E; injection E as <- <-;
            (split; [by destruct f|]); (split; [intros ? ? _ ? (? & ? & ? & ?); done|intros ? (? & ? & ? & ?); done]).
        - left. destruct Hok as [?|[?|[[= ->]|[[= ->]|(d & ? & [[= ->]|?])]]]]; try done; simpl in E; injection E as <- <-;
            (split; [by destruct f|]); (split; [intros ? ? _ ? (? & ? & ? & ?); done|intros ? (? & ? & ? & ?); done]).
        - destruct Hok as [?|[?|[[= ->]|[[= ->]|[Hin [[= ->]|[? ?]]]]]]]; try done; simpl in E; injection E as <- <-.
          + left. split; [done|]. split.
            * intros d q Hd u' (? & ? & ? & [= <- _ _ _]). destruct (fine f); [|done].
              destruct (find_user (w_docs w) u) eqn:Ef; [done|]. intros d' Hd'. by eapply find_none.
            * intros u' _ Hd. destruct (fine f); [|by destruct Hd as [?|[? ?]]].
              destruct (find_user (w_docs w) u) eqn:Ef; by destruct Hd as [?|[? ?]].
          + destruct f; simpl.
            * right. exists u, pw, i, s. done.
            * left. split; [done|]. split; [done|]. intros u' _ [?|[? ?]]; done.
            * right. exists u, pw, i, s. done.
          + left. split; [by destruct f|]. split; [by destruct f|]. intros u' R _. exists (Register u pw i s), (Running (Graph i (Ret Ok))).
            split; [done|]. split; [done|]. right. eauto. }
      unfold xinv, no_doc. simpl. split; [|split; [|split]].
      + intros t1 t2 o1 o2 q1 q2 u E1 E2 R1 R2.
        apply (update_cases _ _ _ _ _ _ _ Hto) in E1 as [[-> [= -> E1]]|[Hn1 E1]]; apply (update_cases _ _ _ _ _ _ _ Hto) in E2 as [[-> [= -> E2]]|[Hn2 E2]]; eauto.
      + intros t1 o1 d q u E1 R. apply (update_cases _ _ _ _ _ _ _ Hto) in E1 as [[-> [= -> E1]]|[Hn1 E1]].
        * destruct Hwhat as [(Hd & Hw & _)|(? & ? & ? & ? & _ & _ & _ & Hw)]; [|by edestruct Hw]. rewrite Hd. by eapply Hw.
        * destruct Hwhat as [(Hd & _)|(u' & pw & i & s & -> & -> & Hd & _)]; [rewrite Hd; by eapply H2|].
          rewrite Hd. intros d' [Hd'|Hd'%elem_of_list_singleton]%elem_of_app; [by eapply H2|]. subst d'. simpl. intros ->.
          apply Hn1. eapply H1; [done..|]. eexists _, _, _. done.
      + destruct Hwhat as [(-> & _)|(u' & pw & i & s & -> & -> & -> & _)]; [done|].
        rewrite fmap_app. apply NoDup_app. split; [done|]. split; [|apply NoDup_singleton].
        intros x (d & -> & Hd)%elem_of_list_fmap Hx2%elem_of_list_singleton. eapply H2; [exact Hto|by eexists _, _, _|done|done].
      + assert (∀ t1 u, past (set_calls w1 (<[t:=(o, settle p')]> (w_calls w))) t1 u → past w t1 u ∨ (t1 = t ∧ no_doc w u)) as Hp.
        { intros t1 u (o1 & th & E1 & R & Hth). simpl in E1. apply (update_cases _ _ _ _ _ _ _ Hto) in E1 as [[-> [= -> ->]]|[Hn1 E1]].
          - destruct Hwhat as [(_ & _ & Hw)|(u' & pw & i & s & -> & -> & Hd & _)]; [left; by eapply Hw|].
            right. split; [done|]. eapply H2; [exact Hto|done].
          - left. by exists o1, th. }
        intros t1 t2 u Ha%Hp Hb%Hp. destruct Ha as [Ha|[-> Ha]], Hb as [Hb|[-> Hb]]; [by eapply H4|..|done].
        * by destruct (past_doc _ _ _ Hi Ha).
        * by destruct (past_doc _ _ _ Hi Hb).
    - destruct (w_calls w !! t) as [[o [p| |]]|] eqn:Hto; try done. injection Hs as <-. unfold xinv, no_doc. simpl. split; [|split; [|split; [done|]]].
      + intros t1 t2 o1 o2 q1 q2 u E1 E2 R1 R2.
        apply (update_cases _ _ _ _ _ _ _ Hto) in E1 as [[-> [= -> E1]]|[Hn1 E1]]; apply (update_cases _ _ _ _ _ _ _ Hto) in E2 as [[-> [= -> E2]]|[Hn2 E2]]; eauto.
      + intros t1 o1 d q u E1 R. apply (update_cases _ _ _ _ _ _ _ Hto) in E1 as [[-> [= -> E1]]|[Hn1 E1]]. by eapply H2.
      + assert (∀ t1 u, past (set_calls w (<[t:=(o, Gone)]> (w_calls w))) t1 u → past w t1 u) as Hp.
        { intros t1 u (o1 & th & E1 & R & Hth). simpl in E1. apply (update_cases _ _ _ _ _ _ _ Hto) in E1 as [[-> [= -> ->]]|[Hn1 E1]].
          - by destruct Hth as [?|[? ?]].
          - by exists o1, th. }
        intros t1 t2 u Ha Hb. eapply H4; by apply Hp.
    - injection Hs as <-. unfold xinv, past, no_doc. simpl. done.
  Qed.
  Lemma xinv_run es w : (∀ x, hash x ≠ "") → run hash exclusive started es w → inv w ∧ xinv w.
  Proof.
    intros Hh Hr. remember started as w0 eqn:E0. induction Hr as [|w0 es w1 e w2 Hr IH Hp Hs]; subst.
    - split; [apply inv_started|apply xinv_started].
    - destruct IH as [? ?]; [done|]. split; [by eapply inv_step|by eapply xinv_step].
  Qed.
  Lemma unique_account w d : NoDup (us_name <$> w_docs w) → d ∈ w_docs w → account w (us_name d) d.
  Proof.
    intros Hn [l1 [l2 E]]%elem_of_list_split. exists l1, l2. split; [done|]. split; [done|]. intros d' Hd' Eq.
    rewrite E, fmap_app in Hn. apply NoDup_app in Hn as (_ & Hn & _). apply (Hn (us_name d')); [by apply elem_of_list_fmap_1|].
    rewrite fmap_cons, Eq. by left.
  Qed.

  (** A registration of a free name *)
  Lemma register_complete w u p i s w1 es w2 : (∀ x, hash x ≠ "") → inv w → no_doc w u →
    exclusive w (Start (Register u p i s)) → step hash (Start (Register u p i s)) w = Some w1 →
    run hash (λ w e, exclusive w e ∧ works_for (length (w_calls w1) - 1) e) w1 es w2 →
    ∃ th, w_calls w2 !! length (w_calls w) = Some (Register u p i s, th) ∧ ∀ r, th = Done r → r = Ok.
  Proof.
    intros Hh Hi Hn Hx Hs Hr. destruct (own_start _ _ _ Hs) as [Ht Hd].
    assert (length (w_calls w1) - 1 = length (w_calls w))%nat as El.
    { simpl in Hs. injection Hs as <-. simpl. rewrite app_length. simpl. lia. }
    rewrite El in Hr. set (t := length (w_calls w)) in *.
    assert (∀ t' o q, w_calls w1 !! t' = Some (o, Running q) → registers o u → t' = t) as Halone.
    { simpl in Hs. injection Hs as <-. simpl. intros t' o q [[-> _]|E]%snoc_cases R; [done|].
      exfalso. eapply Hx; [by eapply elem_of_list_lookup_2|done]. }
    set (I := λ wa th,
      ((th = Running (register hash u p i s) ∨ th = Running (DIns (new_user hash u p i s) (Graph i (Ret Ok)))) ∧ no_doc wa u ∧
         ∀ t' o q, w_calls wa !! t' = Some (o, Running q) → registers o u → t' = t) ∨
      th = Running (Graph i (Ret Ok)) ∨ th = Done Ok).
    edestruct (own_run _ I t (Register u p i s) w1 es w2 (settle (program hash (Register u p i s))) Hr) as (th & Hth & HI); [by intros ? ? [_ ?]|done|by eapply inv_step|done|..].
    - left. split; [by left|]. split; [|done]. intros d. rewrite Hd. apply Hn.
    - intros wa e wb th Hia _ [Hxe _] Hse Hta [(Hsh & Hna & Hal)|HI] Hne; [|by right]. left. split; [done|].
      assert (∃ q, th = Running q) as [q ->] by (destruct Hsh as [->| ->]; eauto).
      destruct e as [o|t' f|t'|k]; simpl in Hse.
      + injection Hse as <-. simpl. split; [done|]. intros t' o' q' [[-> [= -> E1]]|E]%snoc_cases R; [|by eapply Hal].
        destruct R as (? & ? & ? & ->). simpl in Hxe. edestruct Hxe; [by eapply elem_of_list_lookup_2|]. by eexists _, _, _.
      + destruct (w_calls wa !! t') as [[o [q'| |]]|] eqn:Hto; try done. destruct (exec q' f wa) as [p' w3] eqn:E. injection Hse as <-.
        assert (t' ≠ t) as Hnt by congruence. split.
        * intros d Hdin. simpl in Hdin. destruct Hia as (_ & _ & Htok). pose proof (elem_of_list_lookup_2 _ _ _ Hto) as Hok%Htok.
          assert (d ∈ w_docs wa ∨ made_by hash o d) as [?|(u' & pw & i' & s' & -> & ->)]; [|by apply Hna|].
          { assert (w_docs w3 = w_docs (exec q' f wa).2) as Ew by by rewrite E. rewrite Ew in Hdin. clear -Hdin Hok.
            destruct q'; simpl in Hdin; auto; try (destruct f; by left).
            assert (d ∈ w_docs wa ∨ d = d0) as [?| ->] by (destruct f; simpl in Hdin; set_solver); [by left|]. right.
            destruct o as [u pw|u|u pw i s]; simpl in Hok.
            - by destruct Hok as [?|[?|[[= ?]|[[= ?]|(? & ? & ? & [[= ?]|?])]]]].
            - by destruct Hok as [?|[?|[[= ?]|[[= ?]|(? & ? & [[= ?]|?])]]]].
            - destruct Hok as [?|[?|[[= ?]|[[= -> ->]|(? & [[= ?]|[? ?]])]]]]; try done. by exists u, pw, i, s. }
          simpl. intros ->. apply Hnt. eapply Hal; [exact Hto|]. by eexists _, _, _.
        * simpl. intros t1 o1 q1 E1 R. apply (update_cases _ _ _ _ _ _ _ Hto) in E1 as [[-> [= -> E1]]|[Hn1 E1]]; by eapply Hal.
      + destruct (w_calls wa !! t') as [[o [q'| |]]|] eqn:Hto; try done. injection Hse as <-. simpl. split; [done|].
        intros t1 o1 q1 E1 R. apply (update_cases _ _ _ _ _ _ _ Hto) in E1 as [[-> [= -> E1]]|[Hn1 E1]]; by eapply Hal.
      + injection Hse as <-. done.
    - intros wa wb q Hia _ _ Hse Hta Ed [([[= ->]|[= ->]] & Hna & Hal)|[[= ->]|?]]; try done.
      + left. simpl in Hse. rewrite Hta in Hse. simpl in *.
        destruct (find_user (w_docs wa) u) as [d|] eqn:Ef.
        { exfalso. apply (proj2 (account_find wa u d)) in Ef. apply account_doc in Ef as [? ?]. by eapply Hna. }
        injection Hse as <-. split; [by right|]. split; [done|]. simpl. intros t1 o1 q1 E1 R.
        apply (update_cases _ _ _ _ _ _ _ Hta) in E1 as [[-> [= -> E1]]|[Hn1 E1]]; by eapply Hal.
      + right. by left.
      + right. by right.
    - exists th. split; [done|]. intros r ->. destruct HI as [([?|?] & _)|[?|[= ->]]]; done.
  Qed.

  (** ** Calls end *)
  Inductive fuel : nat → prog → Prop :=
    | fuel_ret n r : fuel n (Ret r)
    | fuel_get n k f : (∀ x, fuel n (f x)) → fuel (S n) (CGet k f)
    | fuel_put n k v p : fuel n p → fuel (S n) (CPut k v p)
    | fuel_find n u f : (∀ x, fuel n (f x)) → fuel (S n) (DFind u f)
    | fuel_ins n d p : fuel n p → fuel (S n) (DIns d p)
    | fuel_graph n i p : fuel n p → fuel (S n) (Graph i p).
  Lemma fuel_exec n p f w : fuel (S n) p → fuel n (exec p f w).1.
  Proof. inversion 1; subst; simpl; try constructor; destruct f; simpl; auto; constructor. Qed.
  Lemma fuel_weaken n p : fuel n p → fuel (S n) p.
  Proof. induction 1; constructor; auto. Qed.
  Lemma fuel_program o : fuel 3 (program hash o).
  Proof.
    assert (∀ u p i h s, fuel 1 (check hash u p i h s)) as Hc by (intros; unfold check; case_bool_decide; repeat constructor).
    assert (∀ u p, fuel 2 (lookup_login hash u p)) as Hl by (intros; constructor; intros [?|]; apply Hc).
    assert (∀ u, fuel 2 (lookup_creator u)) as Hk by (intros; constructor; intros [?|]; repeat constructor).
    destruct o; simpl.
    - constructor. intros [[? ? ?|?]|]; try case_match; auto using fuel_weaken.
    - constructor. intros [[? ? ?|?]|]; try case_match; auto using fuel_weaken. constructor.
    - constructor. intros [?|]; repeat constructor.
  Qed.
  Lemma calls_end (P : world → event → Prop) w es w' t o th : run hash P w es w' → w_calls w !! t = Some (o, th) →
    (∀ p, th = Running p → fuel 3 p) →
    ∃ th', w_calls w' !! t = Some (o, th') ∧ ∀ p, th' = Running p → ∃ n, (n + steps_of t es ≤ 3)%nat ∧ fuel n p.
  Proof.
    intros Hr Ht Hf. induction Hr as [|w es w1 e w2 Hr IH Hp Hs].
    - exists th. split; [done|]. intros p ->. exists 3%nat. split; [done|by apply Hf].
    - destruct IH as (th1 & Ht1 & Hf1); [done..|]. destruct (own_step _ _ _ _ _ _ Hs Ht1) as [[E Hne]|[(p & f & -> & -> & E & Ed)|(p & -> & -> & E)]].
      + exists th1. split; [done|]. intros p ->. destruct (Hf1 p eq_refl) as (n & Hn & Hfu). exists n. split; [|done].
        unfold steps_of in *. rewrite filter_app, app_length. assert (filter (step_of t) [e] = []) as ->; [|simpl; lia].
        destruct e as [|t' f| |]; try done. unfold filter. simpl. case_decide as Hd; [|done]. simpl in Hd. subst. by destruct (Hne f).
      + eexists. split; [exact E|]. intros p' Hp'. destruct (Hf1 p eq_refl) as (n & Hn & Hfu).
        assert (p' = (exec p f w1).1) as ->. { destruct (exec p f w1).1; try done; simpl in Hp'; congruence. }
        destruct n as [|n].
        * inversion Hfu; subst. simpl in Hp'. done.
        * exists n. split; [|by apply fuel_exec]. unfold steps_of in *. rewrite filter_app, app_length.
          unfold filter at 2. simpl. case_decide as Hd; [|by destruct Hd]. simpl. lia.
      + eexists. split; [exact E|]. intros p' [=].
  Qed.
End hash.
