(** * Proofs about mentions *)
From Verif Require Export Mention_Spec.
From stdpp Require Export list.
Set Default Proof Using "Type".
Open Scope Z_scope.

(** ** Names *)
Lemma words_spec s : ∃ b, s = words s ++ b ∧ Forall (λ c, word c = true) (words s) ∧ ∀ c, head b = Some c → word c = false.
Proof.
  induction s as [|c s (b & E & Hf & Hh)]; [exists []; split; [done|]; split; [constructor|done]|]. simpl. destruct (word c) eqn:Hc.
  - exists b. simpl. rewrite <-E. auto.
  - exists (c :: s). split; [done|]. split; [constructor|]. by intros ? [= <-].
Qed.
Lemma words_app n b : Forall (λ c, word c = true) n → (∀ c, head b = Some c → word c = false) → words (n ++ b) = n.
Proof.
  intros Hf Hh. induction Hf as [|c n Hc Hf IH]; simpl; [|by rewrite Hc, IH]. destruct b as [|c b]; [done|]. simpl. by rewrite (Hh c eq_refl).
Qed.
Lemma mentioned_cons c s n : mentioned s n → mentioned (c :: s) n.
Proof. intros (a & b & -> & H). exists (c :: a), b. done. Qed.
Lemma names_cons c s : names (c :: s) = if bool_decide (c = at_sign) then match words s with [] => names s | n => n :: names s end else names s.
Proof. done. Qed.
Lemma names_spec s n : n ∈ names s ↔ mentioned s n.
Proof.
  split.
  - induction s as [|c s IH]; simpl; [by intros ?%elem_of_nil|]. case_bool_decide as Hc; [|intros; by apply mentioned_cons, IH].
    destruct (words s) as [|x y] eqn:E; [intros; by apply mentioned_cons, IH|]. intros [-> |H]%elem_of_cons; [|by apply mentioned_cons, IH].
    destruct (words_spec s) as (b & Eb & Hf & Hh). rewrite E in *. exists [], b. subst c. split; [simpl; by f_equal|done].
  - intros (a & b & -> & Hne & Hf & Hh). induction a as [|c a IH]; cbn [app]; rewrite names_cons.
    + case_bool_decide; [|done]. rewrite words_app by done. destruct n; [done|]. by left.
    + case_bool_decide; [|exact IH]. destruct (words _); [exact IH|]. by right.
Qed.

(** ** Calls *)
Definition value_ok (d : list user) (n : text) (p : user) : Prop := p.1 = n ∧ (p.2 = 0 ∨ p ∈ d).
Definition good (d0 d : list user) (ns : list text) (l : list user) : Prop :=
  (∀ p, p ∈ l → p.1 ∈ ns ∧ p ∈ d) ∧ (∀ q, q ∈ d0 → q.1 ∈ ns → q.1 ∈ l.*1) ∧ (NoDup ns → NoDup d.*1 → NoDup l.*1).
(** Where a call is that began when the users were [d0] *)
Inductive stage (d0 d : list user) : op → prog → Prop :=
  | s_failed o : stage d0 d o (Ret Failed)
  | s_get n : stage d0 d (GetId n) (get_id n)
  | s_find n : stage d0 d (GetId n) (find_id n)
  | s_put n i : (n, i) ∈ d → stage d0 d (GetId n) (CPut n i (Ret (Id i)))
  | s_id n i : (n, i) ∈ d → stage d0 d (GetId n) (Ret (Id i))
  | s_mget s dn rest acc : names s = dn ++ rest → Forall2 (value_ok d) dn acc → stage d0 d (Mention s) (mget rest acc (after_mget (names s)))
  | s_said s l : good d0 d (names s) l → stage d0 d (Mention s) (Ret (Mentions l)).
Lemma good_mono d0 d x ns l : good d0 d ns l → good d0 (d ++ x) ns l.
Proof.
  intros (H1 & H2 & H3). split; [|split; [done|]].
  - intros p Hp. destruct (H1 p Hp). split; [done|]. apply elem_of_app. by left.
  - intros Hn Hd. apply H3; [done|]. rewrite fmap_app in Hd. by apply NoDup_app in Hd as [? _].
Qed.
Lemma stage_mono d0 d x o p : stage d0 d o p → stage d0 (d ++ x) o p.
Proof.
  intros H. destruct H; [apply s_failed|apply s_get|apply s_find|apply s_put, elem_of_app; by left|apply s_id, elem_of_app; by left| |].
  - eapply s_mget; [done|]. eapply Forall2_impl; [done|]. intros n p [? [?|?]]; split; try done; [by left|right; apply elem_of_app; by left].
  - by apply s_said, good_mono.
Qed.
Lemma stage_program d0 d o : stage d0 d o (program o).
Proof. destruct o; [apply s_get|]. eapply (s_mget _ _ _ []); [done|constructor]. Qed.
Lemma cached_ok d ns values p : Forall2 (value_ok d) ns values → p ∈ filter (λ p : user, p.2 ≠ 0) values → p.1 ∈ ns ∧ p ∈ d.
Proof.
  intros Hf [Hne Hp]%elem_of_list_filter. apply elem_of_list_lookup in Hp as [k Hk]. destruct (Forall2_lookup_r _ _ _ _ _ Hf Hk) as (n & Hn & <- & [?|Hd]); [done|].
  split; [by eapply elem_of_list_lookup_2|done].
Qed.
Lemma cached_nodup d ns values : Forall2 (value_ok d) ns values → NoDup ns → NoDup (filter (λ p : user, p.2 ≠ 0) values).*1.
Proof.
  induction 1 as [|n p ns values Hp Hf IH]; [constructor|]. intros [Hi Hn]%NoDup_cons. rewrite filter_cons. case_decide as Hd; [|auto].
  simpl. apply NoDup_cons. split; [|auto]. intros [q [Hq Hin]]%elem_of_list_fmap. destruct (cached_ok _ _ _ _ Hf Hin) as [Hx _].
  destruct Hp as [<- _]. by rewrite Hq in Hi.
Qed.
Lemma filter_keys (P : user → Prop) `{!∀ x, Decision (P x)} (l : list user) : NoDup l.*1 → NoDup (filter P l).*1.
Proof.
  induction l as [|x l IH]; [done|]. simpl. intros [Hx Hl]%NoDup_cons. rewrite filter_cons. case_decide; [|auto].
  simpl. apply NoDup_cons. split; [|auto]. intros [y [Hy Hin]]%elem_of_list_fmap. apply Hx. apply elem_of_list_filter in Hin as [_ Hin]. rewrite Hy. apply elem_of_list_fmap; eauto.
Qed.
Definition left_of (ns : list text) (values : list user) : list text := filter (λ n, n ∉ (filter (λ p : user, p.2 ≠ 0) values).*1) (remove_dups ns).
Lemma in_left ns values n : n ∈ ns → n ∈ (filter (λ p : user, p.2 ≠ 0) values).*1 ∨ n ∈ left_of ns values.
Proof.
  intros Hn. destruct (decide (n ∈ (filter (λ p : user, p.2 ≠ 0) values).*1)); [by left|right]. apply elem_of_list_filter. split; [done|]. by apply elem_of_remove_dups.
Qed.
Lemma good_cached d0 d ns values : Forall2 (value_ok d) ns values → left_of ns values = [] → good d0 d ns (filter (λ p, p.2 ≠ 0) values).
Proof.
  intros Hf Hl. split; [|split].
  - intros p Hp. by apply (cached_ok _ _ _ _ Hf).
  - intros q _ Hq. destruct (in_left ns values _ Hq) as [?|H]; [done|]. rewrite Hl in H. by apply elem_of_nil in H.
  - intros Hn _. by apply (cached_nodup d ns).
Qed.
Lemma good_found d0 d ns values : d0 ⊆ d → Forall2 (value_ok d) ns values → good d0 d ns (filter (λ p, p.2 ≠ 0) values ++ filter (λ u, u.1 ∈ left_of ns values) d).
Proof.
  intros Hsub Hf. split; [|split].
  - intros p [Hp|Hp]%elem_of_app; [by apply (cached_ok _ _ _ _ Hf)|]. apply elem_of_list_filter in Hp as [Hp ?]. split; [|done].
    apply elem_of_list_filter in Hp as [_ Hp]. by apply elem_of_remove_dups.
  - intros q Hq0 Hq. rewrite fmap_app. apply elem_of_app. destruct (in_left ns values _ Hq) as [?|H]; [by left|right].
    apply elem_of_list_fmap. exists q. split; [done|]. apply elem_of_list_filter. split; [done|]. by apply Hsub.
  - intros Hn Hd. rewrite fmap_app. apply NoDup_app. split; [by apply (cached_nodup d ns)|]. split; [|by apply filter_keys].
    intros n Hx Hy. apply elem_of_list_fmap in Hy as (u & -> & Hu). apply elem_of_list_filter in Hu as [Hu _]. by apply elem_of_list_filter in Hu as [Hu _].
Qed.
Lemma said d0 d s l : stage d0 d (Mention s) (Ret (Mentions l)) → good d0 d (names s) l.
Proof.
  intros H. remember (Mention s) as o eqn:Eo. remember (Ret (Mentions l)) as p eqn:Ep. destruct H as [| | | | |s' dn rest acc En Hf|s' l' Hg]; try done.
  - injection Eo as ->. destruct rest as [|n rest]; [|done]. rewrite app_nil_r in En. subst dn. simpl in Ep. unfold after_mget in Ep.
    destruct (filter _ (remove_dups (names s))) as [|x y] eqn:El; [|done]. injection Ep as <-. by apply good_cached.
  - injection Eo as ->. injection Ep as ->. done.
Qed.
Lemma head_in (l : list user) i : head l.*2 = Some i → ∃ u, u ∈ l ∧ u.2 = i.
Proof. destruct l as [|u l]; [done|]. intros [= <-]. exists u. split; [by left|done]. Qed.
Lemma head_none (l : list user) : head l.*2 = None → l = [].
Proof. by destruct l. Qed.
Definition cache_ok (d : list user) (c : gmap text Z) : Prop := ∀ n i, c !! n = Some i → (n, i) ∈ d.
Lemma stage_act d0 d o p f c : d0 ⊆ d → cache_ok d c → stage d0 d o p → cache_ok d (act p f d c).1 ∧ stage d0 d o (act p f d c).2.
Proof.
  intros Hsub Hc H. destruct H as [o|n|n|n i Hi|n i Hi|s dn rest acc En Hf|s l Hg]; simpl.
  - split; [done|apply s_failed].
  - split; [done|]. destruct (fine f); [|apply s_failed]. destruct (c !! n) as [i|] eqn:E; [by apply s_id, Hc|apply s_find].
  - split; [done|]. destruct (fine f); [|apply s_failed]. destruct (head _) as [i|] eqn:E; [|apply s_failed]. apply s_put.
    apply head_in in E as (u & Hu & <-). apply elem_of_list_filter in Hu as [<- Hu]. by destruct u.
  - split; [|destruct (fine f); [by apply s_id|apply s_failed]]. destruct (done_by f); [|done]. intros m j. rewrite lookup_insert_Some. intros [[<- <-]|[_ ?]]; [done|by apply Hc].
  - split; [done|by apply s_id].
  - destruct rest as [|n rest]; simpl.
    + rewrite app_nil_r in En. subst dn. unfold after_mget. pose proof (good_cached d0 d _ _ Hf) as G1. pose proof (good_found d0 d _ _ Hsub Hf) as G2. unfold left_of in *.
      destruct (filter _ (remove_dups (names s))) as [|x y] eqn:El; simpl.
      * split; [done|]. by apply s_said, G1.
      * split; [done|]. destruct (fine f); [|apply s_failed]. apply s_said. exact G2.
    + split; [done|]. apply (s_mget _ _ s (dn ++ [n])); [by rewrite <-app_assoc|]. apply Forall2_app; [done|]. constructor; [|constructor]. split; [done|].
      destruct (fine f); [|by left]. destruct (c !! n) as [i|] eqn:E; [right; by apply Hc|by left].
  - split; [done|by apply s_said].
Qed.

(** ** Histories *)
Definition call_ok (d0 d : list user) (o : op) (th : thread) : Prop := match th with Running p => stage d0 d o p | Done r => stage d0 d o (Ret r) | Gone => True end.
Definition inv (t0 : nat) (d0 : list user) (w : world) : Prop :=
  d0 ⊆ w_db w ∧ cache_ok (w_db w) (w_cache w) ∧ ∀ t o th, w_calls w !! t = Some (o, th) → call_ok (if decide (t = t0) then d0 else []) (w_db w) o th.
Lemma settle_ok d0 d o p : stage d0 d o p → call_ok d0 d o (settle p).
Proof. by destruct p. Qed.
Lemma inv_step t0 d0 e w w' : inv t0 d0 w → step e w = Some w' → inv t0 d0 w'.
Proof.
  intros (Hsub & Hc & Hcalls) H. destruct e as [u|o|t f|t|n]; simpl in H.
  - injection H as <-. split; [simpl; set_solver|]. split; simpl; [intros n i Hi; apply elem_of_app; left; by apply Hc|].
    intros t o th Ht. specialize (Hcalls t o th Ht). destruct th; simpl in *; [by apply stage_mono|by apply stage_mono|done].
  - injection H as <-. split; [done|]. split; [done|]. simpl. intros t o' th Ht. apply lookup_app_Some in Ht as [Ht|[Hlen Ht]]; [by apply Hcalls|].
    apply list_lookup_singleton_Some in Ht as [_ [= <- <-]]. apply settle_ok, stage_program.
  - destruct (w_calls w !! t) as [[o [p|r|]]|] eqn:Et; try done. destruct (act p f (w_db w) (w_cache w)) as [c p'] eqn:Ea. injection H as <-.
    specialize (Hcalls t o (Running p) Et) as Hp. simpl in Hp.
    assert ((if decide (t = t0) then d0 else []) ⊆ w_db w) as Hs by (case_decide; [done|apply list_subseteq_nil]).
    destruct (stage_act _ _ o p f (w_cache w) Hs Hc Hp) as [H1 H2]. rewrite Ea in H1, H2. simpl in H1, H2. split; [done|]. split; [done|]. simpl.
    intros t' o' th Ht. apply list_lookup_insert_Some in Ht as [(<- & [= <- <-] & _)|[_ Ht]]; [by apply settle_ok|by apply Hcalls].
  - destruct (w_calls w !! t) as [[o [p|r|]]|] eqn:Et; try done. injection H as <-. split; [done|]. split; [done|]. simpl.
    intros t' o' th Ht. apply list_lookup_insert_Some in Ht as [(<- & [= <- <-] & _)|[_ Ht]]; [done|by apply Hcalls].
  - injection H as <-. split; [done|]. split; [|done]. simpl. intros m i [_ Hi]%lookup_delete_Some. by apply Hc.
Qed.
Lemma inv_run t0 d0 w es w' : inv t0 d0 w → run w es w' → inv t0 d0 w'.
Proof. intros Hi H. induction H; [done|]. eapply inv_step; [|done]. auto. Qed.
Lemma inv_history t0 es w : history es w → inv t0 [] w.
Proof. apply inv_run. split; [done|]. split; [done|]. done. Qed.
Lemma run_joined w es w' : run w es w' → w_db w' = w_db w ++ joined es.
Proof.
  induction 1 as [w|w es w1 e w2 Hr IH Hs]; [by rewrite app_nil_r|]. unfold joined in *. rewrite omap_app, app_assoc, <-IH. destruct e as [u|o|t f|t|n]; simpl in *.
  - by injection Hs as <-.
  - injection Hs as <-. by rewrite app_nil_r.
  - destruct (w_calls w1 !! t) as [[o [p|r|]]|]; try done. destruct (act _ _ _ _). injection Hs as <-. by rewrite app_nil_r.
  - destruct (w_calls w1 !! t) as [[o [p|r|]]|]; try done. injection Hs as <-. by rewrite app_nil_r.
  - injection Hs as <-. by rewrite app_nil_r.
Qed.
Lemma inv_around es1 w1 o es2 w2 : around es1 w1 o es2 w2 → inv (length (w_calls w1)) (w_db w1) w2.
Proof.
  intros (Hh & w1' & Hs & Hr). eapply inv_run; [|exact Hr]. eapply inv_step; [|exact Hs]. destruct (inv_history (length (w_calls w1)) _ _ Hh) as (_ & Hc & Hcalls).
  split; [done|]. split; [done|]. intros t o' th Ht. specialize (Hcalls t o' th Ht). case_decide as Hd; [|done]. apply lookup_lt_Some in Ht. lia.
Qed.

(** ** Calls that are not let down *)
Inductive hopeful (d0 : list user) : op → prog → Prop :=
  | h_get n : n ∈ d0.*1 → hopeful d0 (GetId n) (get_id n)
  | h_find n : n ∈ d0.*1 → hopeful d0 (GetId n) (find_id n)
  | h_put n i : hopeful d0 (GetId n) (CPut n i (Ret (Id i)))
  | h_id n i : hopeful d0 (GetId n) (Ret (Id i))
  | h_mget s rest acc ns : hopeful d0 (Mention s) (mget rest acc (after_mget ns))
  | h_said s l : hopeful d0 (Mention s) (Ret (Mentions l)).
Lemma hopeful_failed d0 o : ¬ hopeful d0 o (Ret Failed).
Proof.
  intros H. remember (Ret Failed) as p eqn:Ep. destruct H as [| | | |s rest acc ns|]; try done. destruct rest; [|done]. simpl in Ep. unfold after_mget in Ep.
  by destruct (filter _ (remove_dups ns)).
Qed.
Lemma hopeful_act d0 d o p c : d0 ⊆ d → hopeful d0 o p → hopeful d0 o (act p Works d c).2.
Proof.
  intros Hsub H. destruct H as [n Hn|n Hn|n i|n i|s rest acc ns|s l]; simpl.
  - destruct (c !! n); [apply h_id|by apply h_find].
  - destruct (head _) as [i|] eqn:E; [apply h_put|]. exfalso. apply elem_of_list_fmap in Hn as (u & Hu & Hin).
    apply head_none in E. assert (u ∈ (@nil user)) as Hx by (rewrite <-E; apply elem_of_list_filter; split; [done|by apply Hsub]). by apply elem_of_nil in Hx.
  - apply h_id.
  - apply h_id.
  - destruct rest as [|n rest]; simpl; [|apply h_mget]. unfold after_mget. destruct (filter _ (remove_dups ns)); simpl; apply h_said.
  - apply h_said.
Qed.
Definition well (t : nat) (d0 : list user) (o : op) (w : world) : Prop :=
  d0 ⊆ w_db w ∧ ∃ th, w_calls w !! t = Some (o, th) ∧ match th with Running p => hopeful d0 o p | Done r => r ≠ Failed | Gone => False end.
Lemma settle_well d0 o p : hopeful d0 o p → match settle p with Running p => hopeful d0 o p | Done r => r ≠ Failed | Gone => False end.
Proof. destruct p; simpl; try done. intros H ->. by apply hopeful_failed in H. Qed.
Lemma well_step t d0 o e w w' : well t d0 o w → kind_to t [e] → step e w = Some w' → well t d0 o w'.
Proof.
  intros (Hsub & th & Ht & Hth) Hk H. unfold kind_to in Hk; rewrite Forall_singleton in Hk. destruct e as [u|o'|t' f|t'|n]; simpl in H.
  - injection H as <-. split; [simpl; set_solver|]. eauto.
  - injection H as <-. split; [done|]. exists th. split; [|done]. simpl. by apply lookup_app_l_Some.
  - destruct (w_calls w !! t') as [[o' [p|r|]]|] eqn:Et; try done. destruct (act p f (w_db w) (w_cache w)) as [c p'] eqn:Ea. injection H as <-. split; [done|]. simpl.
    destruct (decide (t' = t)) as [-> |Hne]; [|exists th; by rewrite list_lookup_insert_ne]. rewrite Ht in Et. injection Et as <- ->. rewrite (Hk eq_refl) in Ea.
    exists (settle p'). split; [apply list_lookup_insert; by eapply lookup_lt_Some|]. apply settle_well. pose proof (hopeful_act d0 _ o p (w_cache w) Hsub Hth) as Hx. by rewrite Ea in Hx.
  - destruct (w_calls w !! t') as [[o' [p|r|]]|] eqn:Et; try done. injection H as <-. split; [done|]. exists th. simpl. by rewrite list_lookup_insert_ne.
  - injection H as <-. split; [done|]. eauto.
Qed.
Lemma well_run t d0 o w es w' : well t d0 o w → kind_to t es → run w es w' → well t d0 o w'.
Proof. intros Hw Hk H. induction H as [w|w es w1 e w2 Hr IH Hs]; [done|]. apply Forall_app in Hk as [Hk1 Hk2]. eapply well_step; [by apply IH|done|done]. Qed.
