(** * Proofs about the composition of posts *)
From Verif Require Export NewPost_Spec.
From stdpp Require Export sets list.
Set Default Proof Using "Type".
Open Scope Z_scope.

Definition has (a : args) (p : post) (k : part) (w : world) : Prop :=
  match k with
  | Storage => p ∈ w_posts w
  | User => (a_user a, p_id p, a_clock a) ∈ w_user w
  | Home => (a_user a, p_id p, a_clock a, mention_ids p) ∈ w_home w
  end.
(** Call [t] has come as far as writing [p]; the parts in [todo] are not done *)
Definition wrote (es : list event) (w : world) (t : nat) (a : args) (p : post) (todo : list part) (failed : bool) : Prop :=
  made_from es t a p ∧ (failed = false → ∀ k, k ∉ todo → has a p k w).
Definition call_ok (es : list event) (w : world) (t : nat) (a : args) (th : thread) : Prop :=
  match th with
  | Preparing => ∀ s i, Prepared t s i ∉ es
  | Writing p todo failed => NoDup todo ∧ wrote es w t a p todo failed
  | Done r => (r = Reply (-1) [] true ∧ ∀ p, ¬ made_from es t a p) ∨ ∃ p, r_id r = p_id p ∧ r_mentions r = mention_ids p ∧ wrote es w t a p [] (r_fails r)
  | Gone => True
  end.
Definition caller (es : list event) (w : world) (p : post) (P : args → Prop) : Prop := ∃ t a th, w_calls w !! t = Some (a, th) ∧ made_from es t a p ∧ P a.
Definition inv (es : list event) (w : world) : Prop :=
  (∀ t a th, w_calls w !! t = Some (a, th) → call_ok es w t a th) ∧
  (∀ p, p ∈ w_posts w → p_time p = 0 ∧ caller es w p (λ _, True)) ∧
  (∀ u i c, (u, i, c) ∈ w_user w → ∃ p, p_id p = i ∧ caller es w p (λ a, u = a_user a ∧ c = a_clock a)) ∧
  (∀ u i c ms, (u, i, c, ms) ∈ w_home w → ∃ p, p_id p = i ∧ caller es w p (λ a, u = a_user a ∧ c = a_clock a ∧ ms = (p_mentions p).*1)) ∧
  (∀ t s i, Prepared t s i ∈ es → t < length (w_calls w))%nat ∧
  (∀ t s i s' i', Prepared t s i ∈ es → Prepared t s' i' ∈ es → s = s' ∧ i = i') ∧
  (∀ t a p l b, w_calls w !! t = Some (a, Writing p l b) → p_time p = 0).
Definition grows (w w' : world) : Prop := (∀ a p k, has a p k w → has a p k w').
Lemma made_snoc es e t a p : (∀ s i, e ≠ Prepared t s i) → made_from (es ++ [e]) t a p ↔ made_from es t a p.
Proof.
  intros He. unfold made_from. rewrite elem_of_app, elem_of_list_singleton. split; intros [H ?]; (split; [|done]); [|by left]. destruct H as [H|H]; [done|]. by destruct (He _ _ (eq_sym H)).
Qed.
Lemma made_grow es e t a p : made_from es t a p → made_from (es ++ [e]) t a p.
Proof. intros [H ?]. split; [|done]. apply elem_of_app. by left. Qed.
Lemma call_mono es e w w' t a th : (∀ s i, e ≠ Prepared t s i) → grows w w' → call_ok es w t a th → call_ok (es ++ [e]) w' t a th.
Proof.
  intros He Hg. destruct th as [|p l b|r|]; simpl.
  - intros H s i [Hx|Hx]%elem_of_app; [by destruct (H s i)|]. apply elem_of_list_singleton in Hx. by destruct (He s i).
  - intros (Hn & Hm & Hh). split; [done|]. split; [by apply made_grow|]. auto.
  - intros [[-> H]|(p & E1 & E2 & Hm & Hh)]; [left; split; [done|]; intros p Hp; apply (H p); by apply made_snoc in Hp|].
    right. exists p. split; [done|]. split; [done|]. split; [by apply made_grow|]. auto.
  - done.
Qed.
Lemma caller_mono es e w w' p P : (∀ t a th, w_calls w !! t = Some (a, th) → ∃ th', w_calls w' !! t = Some (a, th')) → caller es w p P → caller (es ++ [e]) w' p P.
Proof. intros Hc (t & a & th & Ht & Hm & HP). destruct (Hc _ _ _ Ht) as [th' ?]. exists t, a, th'. split; [done|]. split; [by apply made_grow|done]. Qed.
Lemma write_calls a p k w : w_calls (write a p k w) = w_calls w.
Proof. by destruct k. Qed.
Lemma write_grows a p k w : grows w (write a p k w).
Proof. intros a' p' k' H. destruct k, k'; simpl in *; try done; apply elem_of_app; by left. Qed.
Lemma write_has a p k w : has a p k (write a p k w).
Proof. destruct k; simpl; apply elem_of_app; right; by left. Qed.
Lemma insert_calls w t a th0 th : w_calls w !! t = Some (a, th0) → ∀ t' a' th', w_calls w !! t' = Some (a', th') → ∃ th'', <[t := (a, th)]> (w_calls w) !! t' = Some (a', th'').
Proof.
  intros Ht t' a' th' Ht'. destruct (decide (t' = t)) as [-> |Hne]; [|exists th'; by rewrite list_lookup_insert_ne]. rewrite Ht in Ht'. injection Ht' as <- _.
  exists th. apply list_lookup_insert. by eapply lookup_lt_Some.
Qed.
Lemma prepare_made a s i p : prepare a s i = Some p →
  s = Some (p_text p, p_mentions p, p_urls p) ∧ i = Some (p_id p) ∧ p_creator p = (a_user a, a_name a) ∧ p_req p = a_req a ∧ p_kind p = a_kind a ∧ (p_medias p).*1 = a_ids a ∧ (p_medias p).*2 = a_types a ∧ p_time p = 0.
Proof.
  unfold prepare, compose_media. destruct s as [[[s ms] us]|]; [|done]. case_bool_decide as Hl; [|done]. destruct i as [i|]; [|done]. intros [= <-]. simpl.
  do 5 (split; [done|]). split; [apply fst_zip; lia|]. split; [apply snd_zip; lia|done].
Qed.
Lemma prepare_none a s i es t p : prepare a s i = None → made_from es t a p → s = Some (p_text p, p_mentions p, p_urls p) → i = Some (p_id p) → False.
Proof.
  intros H (_ & _ & _ & _ & H1 & H2) -> ->. unfold prepare, compose_media in H. rewrite <-H1, <-H2, !fmap_length in H. by rewrite bool_decide_true in H.
Qed.
(** Another call's step, or one of the call [t] itself *)
Lemma inv_call es w e t a th th' w' :
  inv es w → w_calls w !! t = Some (a, th) → (∀ t' s i, e = Prepared t' s i → t' = t ∧ ∀ s i, Prepared t s i ∉ es) →
  grows w w' → w_calls w' = <[t := (a, th')]> (w_calls w) → call_ok (es ++ [e]) w' t a th' → (∀ p l b, th' = Writing p l b → p_time p = 0) →
  (∀ p, p ∈ w_posts w' → p ∈ w_posts w ∨ p_time p = 0 ∧ caller (es ++ [e]) w' p (λ _, True)) →
  (∀ x, x ∈ w_user w' → x ∈ w_user w ∨ ∃ p, x.1.2 = p_id p ∧ caller (es ++ [e]) w' p (λ a, x.1.1 = a_user a ∧ x.2 = a_clock a)) →
  (∀ x, x ∈ w_home w' → x ∈ w_home w ∨ ∃ p, x.1.1.2 = p_id p ∧ caller (es ++ [e]) w' p (λ a, x.1.1.1 = a_user a ∧ x.1.2 = a_clock a ∧ x.2 = (p_mentions p).*1)) →
  inv (es ++ [e]) w'.
Proof.
  intros (H1 & H2 & H3 & H4 & H5 & H6 & H7) Ht He Hg Hw Hok Htime P1 P2 P3.
  assert (∀ t' a' th0, w_calls w !! t' = Some (a', th0) → ∃ th'', w_calls w' !! t' = Some (a', th'')) as Hcs by (rewrite Hw; by apply (insert_calls w t a th)).
  split; [|split; [|split; [|split; [|split; [|split]]]]].
  - intros t' a' th0. rewrite Hw, list_lookup_insert_Some. intros [(<- & [= <- <-] & _)|[Hne Ht']]; [done|]. eapply call_mono; [|done|by apply H1].
    intros s i ->. by destruct (He _ _ _ eq_refl) as [-> _].
  - intros p [Hp|Hp]%P1; [|done]. destruct (H2 _ Hp). split; [done|]. by eapply caller_mono.
  - intros u i c [Hp|(p & E & Hp)]%P2; [|by exists p]. destruct (H3 _ _ _ Hp) as (p & ? & ?). exists p. split; [done|]. by eapply caller_mono.
  - intros u i c ms [Hp|(p & E & Hp)]%P3; [|by exists p]. destruct (H4 _ _ _ _ Hp) as (p & ? & ?). exists p. split; [done|]. by eapply caller_mono.
  - intros t' s i. rewrite Hw, insert_length, elem_of_app, elem_of_list_singleton. intros [H|H]; [by eapply H5|]. destruct (He _ _ _ (eq_sym H)) as [-> _]. by eapply lookup_lt_Some.
  - intros t' s i s' i'. rewrite !elem_of_app, !elem_of_list_singleton. intros [X|X] [Y|Y].
    + by eapply H6.
    + destruct (He _ _ _ (eq_sym Y)) as [-> Hn]. by destruct (Hn s i).
    + destruct (He _ _ _ (eq_sym X)) as [-> Hn]. by destruct (Hn s' i').
    + rewrite <-X in Y. by injection Y as -> ->.
  - intros t' a' p l b. rewrite Hw, list_lookup_insert_Some. intros [(<- & [= <- Hx] & _)|[Hne Ht']]; [by eapply Htime|by eapply H7].
Qed.
Lemma inv_step es w e w' : inv es w → step e w = Some w' → inv (es ++ [e]) w'.
Proof.
  intros Hi H. pose proof Hi as (H1 & H2 & H3 & H4 & H5 & H6 & H7). destruct e as [a|t s i|t k f|t]; simpl in H.
  - injection H as <-. assert (∀ t a' th, w_calls w !! t = Some (a', th) → ∃ th', (w_calls w ++ [(a, Preparing)]) !! t = Some (a', th')) as Hcs by (intros t a' th Ht; exists th; by apply lookup_app_l_Some).
    split; [|split; [|split; [|split; [|split; [|split]]]]]; simpl.
    + intros t a' th Ht. apply lookup_app_Some in Ht as [Ht|[Hlen Ht]]; [eapply call_mono; [done|by intros ? ? []|by apply H1]|].
      apply list_lookup_singleton_Some in Ht as [Ht0 [= <- <-]]. intros s i [Hx|Hx]%elem_of_app; [apply H5 in Hx; lia|]. by apply elem_of_list_singleton in Hx.
    + intros p Hp. destruct (H2 _ Hp). split; [done|]. by eapply caller_mono.
    + intros u i c Hp. destruct (H3 _ _ _ Hp) as (p & ? & ?). exists p. split; [done|]. by eapply caller_mono.
    + intros u i c ms Hp. destruct (H4 _ _ _ _ Hp) as (p & ? & ?). exists p. split; [done|]. by eapply caller_mono.
    + intros t s i [Hx|Hx]%elem_of_app; [apply H5 in Hx; rewrite app_length; simpl; lia|]. by apply elem_of_list_singleton in Hx.
    + intros t s i s' i' [X|X]%elem_of_app [Y|Y]%elem_of_app; try (by apply elem_of_list_singleton in X); try (by apply elem_of_list_singleton in Y). by eapply H6.
    + intros t a' p l b Ht. apply lookup_app_Some in Ht as [Ht|[_ Ht]]; [by eapply H7|]. by apply list_lookup_singleton_Some in Ht as [_ [=]].
  - destruct (w_calls w !! t) as [[a [|p l b|r|]]|] eqn:Et; try done. injection H as <-. pose proof (H1 _ _ _ Et) as Hn. simpl in Hn.
    eapply (inv_call es w _ t a _ _ _ Hi Et); [intros t' s' i' [= -> _ _]; by split|by intros ? ? []|reflexivity| | |intros; by left|intros; by left|intros; by left].
    + destruct (prepare a s i) as [p|] eqn:Ep.
      * apply prepare_made in Ep as (-> & -> & Hr). simpl. split; [apply (bool_decide_unpack _); vm_compute; exact I|]. split; [|].
        { split; [apply elem_of_app; right; by left|]. tauto. }
        { intros _ k Hk. destruct Hk. destruct k; set_solver. }
      * left. split; [done|]. intros p Hm. pose proof Hm as [[Hx|Hx]%elem_of_app _]; [by destruct (Hn (Some (p_text p, p_mentions p, p_urls p)) (Some (p_id p)))|].
        apply elem_of_list_singleton in Hx. injection Hx as <- <-. by eapply prepare_none.
    + intros p l b. destruct (prepare a s i) as [p'|] eqn:Ep; [|done]. intros [= <- _ _]. by apply prepare_made in Ep as (_ & _ & _ & _ & _ & _ & _ & ?).
  - destruct (w_calls w !! t) as [[a [|p l b|r|]]|] eqn:Et; try done. case_bool_decide as Hk; [|done]. injection H as <-. destruct (H1 _ _ _ Et) as (Hnd & Hm & Hh).
    set (w2 := if done_by f then write a p k w else w).
    assert (grows w w2) as Hg by (unfold w2; destruct (done_by f); [apply write_grows|by intros ? ? []]).
    assert (w_calls w2 = w_calls w) as Hc by (unfold w2; destruct (done_by f); [apply write_calls|done]).
    assert (caller (es ++ [Write t k f]) (set_call t a (settle p (filter (λ k', k' ≠ k) l) (b || negb (fine f))) w2) p (λ a', a' = a)) as Hcaller.
    { exists t, a. eexists. simpl. rewrite Hc. split; [apply list_lookup_insert; by eapply lookup_lt_Some|]. split; [by apply made_grow|done]. }
    assert (wrote (es ++ [Write t k f]) (set_call t a (settle p (filter (λ k', k' ≠ k) l) (b || negb (fine f))) w2) t a p (filter (λ k', k' ≠ k) l) (b || negb (fine f))) as Hwr.
    { split; [by apply made_grow|]. intros [Hb Hf]%orb_false_iff k' Hk'. change (has a p k' w2). destruct (decide (k' = k)) as [-> |Hne].
      - unfold w2. destruct f; try done. apply write_has.
      - apply Hg, Hh; [done|]. intros Hin. apply Hk', elem_of_list_filter. done. }
    eapply (inv_call es w _ t a _ _ _ Hi Et); [done|intros ? ? [] Hx; exact (Hg _ _ _ Hx)|simpl; by rewrite Hc| | | | |].
    + unfold settle at 2. destruct (filter (λ k', k' ≠ k) l) as [|x y] eqn:El; [right; exists p; done|]. split; [rewrite <-El; by apply NoDup_filter|done].
    + intros p' l' b'. unfold settle. destruct (filter _ l); [done|]. intros [= <- _ _]. by eapply H7.
    + intros p' Hp. simpl in Hp. unfold w2 in Hp. destruct (done_by f); [|by left]. destruct k; simpl in Hp; try (by left). apply elem_of_app in Hp as [Hp|Hp]; [by left|right].
      apply elem_of_list_singleton in Hp as ->. split; [by eapply H7|]. destruct Hcaller as (t1 & a1 & th1 & Q1 & Q2 & _). by exists t1, a1, th1.
    + intros x Hp. simpl in Hp. unfold w2 in Hp. destruct (done_by f); [|by left]. destruct k; simpl in Hp; try (by left). apply elem_of_app in Hp as [Hp|Hp]; [by left|right].
      apply elem_of_list_singleton in Hp as ->. exists p. split; [done|]. destruct Hcaller as (t1 & a1 & th1 & Q1 & Q2 & ->). exists t1, a, th1. done.
    + intros x Hp. simpl in Hp. unfold w2 in Hp. destruct (done_by f); [|by left]. destruct k; simpl in Hp; try (by left). apply elem_of_app in Hp as [Hp|Hp]; [by left|right].
      apply elem_of_list_singleton in Hp as ->. exists p. split; [done|]. destruct Hcaller as (t1 & a1 & th1 & Q1 & Q2 & ->). exists t1, a, th1. done.
  - assert (∃ a th, w_calls w !! t = Some (a, th) ∧ w' = set_call t a Gone w) as (a & th & Et & ->).
    { destruct (w_calls w !! t) as [[a [|p l b|r|]]|]; try done; injection H as <-; eauto. }
    eapply (inv_call es w _ t a _ _ _ Hi Et); [done|by intros ? ? []|reflexivity|done|done|intros; by left|intros; by left|intros; by left].
Qed.
Lemma inv_started : inv [] started.
Proof.
  split; [|split; [|split; [|split; [|split; [|split]]]]]; simpl.
  - intros t a th. by rewrite lookup_nil.
  - intros p []%elem_of_nil.
  - intros u i c []%elem_of_nil.
  - intros u i c ms []%elem_of_nil.
  - intros t s i []%elem_of_nil.
  - intros t s i s' i' []%elem_of_nil.
  - intros t a p l b. by rewrite lookup_nil.
Qed.
Lemma inv_history es w : history es w → inv es w.
Proof.
  assert (∀ w0 es w, run w0 es w → inv [] w0 → inv es w) as Hx; [|intros H; by apply (Hx started), inv_started].
  clear. intros w0 es w H H0. induction H as [w|w es w1 e w2 Hr IH Hs]; [done|]. eapply inv_step; [by apply IH|done].
Qed.

(** ** Each post once *)
Definition ids (k : part) (w : world) : list Z :=
  match k with Storage => p_id <$> w_posts w | User => (λ x, x.1.2) <$> w_user w | Home => (λ x, x.1.1.2) <$> w_home w end.
Definition inv2 (es : list event) (w : world) : Prop :=
  (∀ k, NoDup (ids k w)) ∧ (∀ k i, i ∈ ids k w → i ∈ given es) ∧
  ∀ t a p l b, w_calls w !! t = Some (a, Writing p l b) → (∃ s, Prepared t s (Some (p_id p)) ∈ es) ∧ ∀ k, k ∈ l → p_id p ∉ ids k w.
Lemma given_in t s i es : Prepared t s (Some i) ∈ es → i ∈ given es.
Proof. intros H. apply elem_of_list_omap. by exists (Prepared t s (Some i)). Qed.
Lemma given_inj t s t' s' i es : NoDup (given es) → Prepared t s (Some i) ∈ es → Prepared t' s' (Some i) ∈ es → t = t'.
Proof.
  induction es as [|e es IH]; [intros _ []%elem_of_nil|]. intros Hn H1 H2.
  assert (NoDup (given es)) as Hn' by (simpl in Hn; destruct (match e with Prepared _ _ i => i | _ => None end); [by apply NoDup_cons in Hn as [_ ?]|done]).
  apply elem_of_cons in H1 as [E1|H1]; apply elem_of_cons in H2 as [E2|H2]; [rewrite <-E1 in E2; by injection E2 as <-| | |by apply IH].
  - subst e. simpl in Hn. apply NoDup_cons in Hn as [Hn _]. destruct Hn. by eapply given_in.
  - subst e. simpl in Hn. apply NoDup_cons in Hn as [Hn _]. destruct Hn. by eapply given_in.
Qed.
Lemma ids_write a p k w k' : ids k' (write a p k w) = ids k' w ++ (if decide (k' = k) then [p_id p] else []).
Proof. destruct k, k'; simpl; rewrite ?fmap_app, ?app_nil_r; done. Qed.
Lemma ids_set t a th w k : ids k (set_call t a th w) = ids k w.
Proof. by destruct k. Qed.
Lemma inv2_step es w e w' : NoDup (given (es ++ [e])) → inv2 es w → step e w = Some w' → inv2 (es ++ [e]) w'.
Proof.
  intros Hnd (H1 & H2 & H3) H. assert (NoDup (given es)) as Hnd0 by (unfold given in Hnd; rewrite omap_app in Hnd; by apply NoDup_app in Hnd as [? _]).
  assert (∀ i, i ∈ given es → i ∈ given (es ++ [e])) as Hgi by (intros i; unfold given; rewrite omap_app, elem_of_app; by left).
  assert (∀ t s i, Prepared t s i ∈ es → Prepared t s i ∈ es ++ [e]) as Hev by (intros; apply elem_of_app; by left).
  destruct e as [a|t s i|t k f|t]; simpl in H.
  - injection H as <-. split; [exact H1|]. split; [intros k i Hi; apply Hgi; by eapply (H2 k)|]. simpl. intros t a' p l b Ht.
    apply lookup_app_Some in Ht as [Ht|[_ Ht]]; [|by apply list_lookup_singleton_Some in Ht as [_ [=]]]. destruct (H3 _ _ _ _ _ Ht) as [[s Hs] Hk]. eauto.
  - destruct (w_calls w !! t) as [[a [|p l b|r|]]|] eqn:Et; try done. injection H as <-. split; [intros k; by rewrite ids_set|]. split; [intros k j; rewrite ids_set; intros Hj; apply Hgi; by eapply H2|].
    intros t' a' p' l b. simpl. rewrite list_lookup_insert_Some. intros [(<- & E & _)|[Hne Ht]].
    + injection E as <- E. destruct (prepare a s i) as [p|] eqn:Ep; [|done]. injection E as <- <- <-. apply prepare_made in Ep as (_ & -> & _). split; [exists s; apply elem_of_app; right; by left|].
      intros k _ Hin. rewrite ids_set in Hin. apply H2 in Hin. unfold given in Hnd. rewrite omap_app in Hnd. apply NoDup_app in Hnd as (_ & Hd & _). apply (Hd _ Hin). simpl. by left.
    + destruct (H3 _ _ _ _ _ Ht) as [[s' Hs] Hk]. split; [eauto|]. intros k Hin. rewrite ids_set. by apply Hk.
  - destruct (w_calls w !! t) as [[a [|p l b|r|]]|] eqn:Et; try done. case_bool_decide as Hk; [|done]. injection H as <-. destruct (H3 _ _ _ _ _ Et) as [[s Hs] Hout].
    set (w2 := if done_by f then write a p k w else w).
    assert (∀ k', ids k' w2 = ids k' w ∨ k' = k ∧ ids k' w2 = ids k' w ++ [p_id p]) as Hid.
    { intros k'. unfold w2. destruct (done_by f); [|by left]. rewrite ids_write. case_decide; [by right|left; apply app_nil_r]. }
    split; [|split].
    + intros k'. rewrite ids_set. destruct (Hid k') as [->|[-> ->]]; [done|]. apply NoDup_app. split; [done|]. split; [|apply NoDup_singleton].
      intros x Hx ->%elem_of_list_singleton. by apply (Hout k).
    + intros k' j. rewrite ids_set. intros Hj. apply Hgi. destruct (Hid k') as [E|[-> E]]; rewrite E in Hj; [by eapply H2|].
      apply elem_of_app in Hj as [Hj| ->%elem_of_list_singleton]; [by eapply H2|by eapply given_in].
    + assert (w_calls w2 = w_calls w) as Hc by (unfold w2; destruct (done_by f); [apply write_calls|done]).
      intros t' a' p' l' b'. simpl. rewrite Hc, list_lookup_insert_Some. intros [(<- & E & _)|[Hne Ht]].
      * injection E as <- E. unfold settle in E. destruct (filter (λ k', k' ≠ k) l) as [|x y] eqn:El; [done|]. injection E as <- <- _. split; [eauto|].
        intros k' Hk'. rewrite <-El in Hk'. apply elem_of_list_filter in Hk' as [Hne Hk']. rewrite ids_set. destruct (Hid k') as [->|[? _]]; [by apply Hout|done].
      * destruct (H3 _ _ _ _ _ Ht) as [[s' Hs'] Hk']. split; [eauto|]. intros k' Hin. rewrite ids_set. destruct (Hid k') as [->|[_ ->]]; [by apply Hk'|]. rewrite elem_of_app, elem_of_list_singleton. intros [Hx|Hx]; [by apply (Hk' k')|].
        rewrite Hx in Hs'. by destruct (Hne (given_inj _ _ _ _ _ _ Hnd0 Hs Hs')).
  - assert (∃ a, w' = set_call t a Gone w) as (a & ->) by (destruct (w_calls w !! t) as [[a [|p l b|r|]]|]; try done; injection H as <-; eauto).
    split; [intros k; by rewrite ids_set|]. split; [intros k j; rewrite ids_set; intros Hj; apply Hgi; by eapply H2|]. intros t' a' p' l b. simpl. rewrite list_lookup_insert_Some.
    intros [(_ & [=] & _)|[Hne Ht]]. destruct (H3 _ _ _ _ _ Ht) as [[s Hs] Hk]. split; [eauto|]. intros k Hin. rewrite ids_set. by apply Hk.
Qed.
Lemma inv2_history es w : history es w → NoDup (given es) → inv2 es w.
Proof.
  assert (∀ w0 es w, run w0 es w → inv2 [] w0 → NoDup (given es) → inv2 es w) as Hx.
  { clear. intros w0 es w H H0. induction H as [w|w es w1 e w2 Hr IH Hs]; [done|]. intros Hn. eapply inv2_step; [done| |done]. apply IH; [done|].
    unfold given in Hn. rewrite omap_app in Hn. by apply NoDup_app in Hn as [? _]. }
  intros H Hn. apply (Hx started); [done| |done]. split; [intros []; constructor|]. split; [intros [] i []%elem_of_nil|]. intros t a p l b. simpl. by rewrite lookup_nil.
Qed.
