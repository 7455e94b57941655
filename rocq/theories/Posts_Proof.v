(** * Proofs about the post storage *)
From Verif Require Export JsonNum_Proof Posts_Spec.
From stdpp Require Export list.
Set Default Proof Using "Type".
Open Scope Z_scope.

Definition good (d0 d : list post) (is : list Z) (l : list post) : Prop :=
  (∀ p, p ∈ l → p ∈ d ∧ (p.1 ∈ is ∨ p.1 ∈ json_num <$> is)) ∧
  (∀ q, q ∈ d0 → q.1 ∈ is → json_num q.1 = q.1 → ∃ p, p ∈ l ∧ p.1 = q.1) ∧
  (NoDup is → (∀ i, i ∈ is → json_num i = i) → NoDup d.*1 → NoDup l.*1).
Definition read_ok (d : list post) (i : Z) (p : post) : Prop := p = no_post ∨ (p.1 = i ∧ p ∈ d).
(** Where a call is that began when the database was [d0] *)
Inductive stage (d0 d : list post) : op → prog → Prop :=
  | s_failed o : stage d0 d o (Ret Failed)
  | s_store p : stage d0 d (StorePost p) (store_post p)
  | s_stored p : p ∈ d → stage d0 d (StorePost p) (Ret Ok)
  | s_read i : stage d0 d (ReadPost i) (read_post i)
  | s_find i : stage d0 d (ReadPost i) (DFindOne i (λ o, match o with Some p => Ret (One p) | None => Ret NotFound end))
  | s_one i p : p.1 = i → p ∈ d → stage d0 d (ReadPost i) (Ret (One p))
  | s_none i : (∀ q, q ∈ d0 → q.1 ≠ i) → stage d0 d (ReadPost i) (Ret NotFound)
  | s_mget is dn rest acc : is = dn ++ rest → Forall2 (read_ok d) dn acc → stage d0 d (ReadPosts is) (mget rest acc (after_mget is))
  | s_fill is ps l : good d0 d is l → ps ⊆ d → stage d0 d (ReadPosts is) (fill ps (Ret (Posts l))).
Lemma good_mono d0 d x is l : good d0 d is l → good d0 (d ++ x) is l.
Proof.
  intros (H1 & H2 & H3). split; [|split; [done|]].
  - intros p Hp. destruct (H1 p Hp) as [? ?]. split; [set_solver|done].
  - intros Hn Hi Hd. apply H3; [done|done|]. rewrite fmap_app in Hd. by apply NoDup_app in Hd as [? _].
Qed.
Lemma stage_mono d0 d x o p : stage d0 d o p → stage d0 (d ++ x) o p.
Proof.
  intros H. destruct H; [apply s_failed|apply s_store|apply s_stored; set_solver|apply s_read|apply s_find|apply s_one; [done|set_solver]|by apply s_none| |].
  - eapply s_mget; [done|]. eapply Forall2_impl; [done|]. intros i p [?|[? ?]]; [by left|right; split; [done|set_solver]].
  - apply s_fill; [by apply good_mono|set_solver].
Qed.
Lemma stage_program d0 d o : stage d0 d o (program o).
Proof. destruct o; [apply s_store|apply s_read|]. eapply (s_mget _ _ _ []); [done|constructor]. Qed.

Definition left_of (is : list Z) (values : list post) : list Z := filter (λ i, i ∉ (filter (λ p, p.1 ≠ 0) values).*1) (remove_dups is).
Lemma cached_ok d is values p : Forall2 (read_ok d) is values → p ∈ filter (λ p, p.1 ≠ 0) values → p.1 ∈ is ∧ p ∈ d.
Proof.
  intros Hf Hp. apply elem_of_list_filter in Hp as [Hne Hp]. apply elem_of_list_lookup in Hp as [k Hk].
  destruct (Forall2_lookup_r _ _ _ _ _ Hf Hk) as (i & Hi & [->|[<- Hd]]); [done|]. split; [by eapply elem_of_list_lookup_2|done].
Qed.
Lemma cached_nodup d is values : Forall2 (read_ok d) is values → NoDup is → NoDup (filter (λ p, p.1 ≠ 0) values).*1.
Proof.
  induction 1 as [|i p is values Hp Hf IH]; [constructor|]. intros [Hi Hn]%NoDup_cons. rewrite filter_cons. case_decide as Hd; [|auto].
  simpl. apply NoDup_cons. split; [|auto]. intros [q [Hq Hin]]%elem_of_list_fmap. destruct (cached_ok _ _ _ _ Hf Hin) as [Hx _].
  destruct Hp as [->|[<- _]]; [done|]. by rewrite Hq in Hi.
Qed.
Lemma filter_keys (P : post → Prop) `{!∀ x, Decision (P x)} (l : list post) : NoDup l.*1 → NoDup (filter P l).*1.
Proof.
  induction l as [|x l IH]; [done|]. simpl. intros [Hx Hl]%NoDup_cons. rewrite filter_cons. case_decide; [|auto].
  simpl. apply NoDup_cons. split; [|auto]. intros [y [Hy Hin]]%elem_of_list_fmap. apply Hx. apply elem_of_list_filter in Hin as [_ Hin]. rewrite Hy. apply elem_of_list_fmap; eauto.
Qed.
Lemma good_cached d0 d is values : Forall2 (read_ok d) is values → left_of is values = [] → good d0 d is (filter (λ p, p.1 ≠ 0) values).
Proof.
  intros Hf Hl. split; [|split].
  - intros p Hp. destruct (cached_ok _ _ _ _ Hf Hp). auto.
  - intros q _ Hq _. destruct (decide (q.1 ∈ (filter (λ p, p.1 ≠ 0) values).*1)) as [H|H]; [apply elem_of_list_fmap in H as (p & Hpq & Hp); eauto|].
    exfalso. assert (q.1 ∈ left_of is values) as Hx; [|rewrite Hl in Hx; by apply elem_of_nil in Hx]. apply elem_of_list_filter. split; [done|]. by apply elem_of_remove_dups.
  - intros Hn _ _. by eapply cached_nodup.
Qed.
Lemma good_found d0 d is values : d0 ⊆ d → Forall2 (read_ok d) is values →
  good d0 d is (filter (λ p, p.1 ≠ 0) values ++ filter (λ p, p.1 ∈ json_num <$> left_of is values) d).
Proof.
  intros Hsub Hf. split; [|split].
  - intros p Hp. apply elem_of_app in Hp as [Hp|Hp]; [destruct (cached_ok _ _ _ _ Hf Hp); auto|]. apply elem_of_list_filter in Hp as [Hi Hp]. split; [done|]. right.
    apply elem_of_list_fmap in Hi as (i & -> & Hi). apply elem_of_list_fmap. exists i. split; [done|]. apply elem_of_list_filter in Hi as [_ Hi]. by rewrite elem_of_remove_dups in Hi.
  - intros q Hq0 Hq Hj. destruct (decide (q.1 ∈ (filter (λ p, p.1 ≠ 0) values).*1)) as [H|H].
    + apply elem_of_list_fmap in H as (p & Hpq & Hp). exists p. split; [set_solver|done].
    + exists q. split; [|done]. apply elem_of_app. right. apply elem_of_list_filter. split; [|by apply Hsub]. apply elem_of_list_fmap. exists q.1. split; [done|].
      apply elem_of_list_filter. split; [done|]. by apply elem_of_remove_dups.
  - intros Hn Hj Hd. rewrite fmap_app. apply NoDup_app. split; [by eapply cached_nodup|]. split; [|by apply filter_keys].
    intros i Hi Hi'. apply elem_of_list_fmap in Hi' as (p & -> & Hp). apply elem_of_list_filter in Hp as [Hp _]. apply elem_of_list_fmap in Hp as (j & Hpj & Hjl).
    apply elem_of_list_filter in Hjl as [Hnj Hjl]. rewrite elem_of_remove_dups in Hjl. rewrite (Hj _ Hjl) in Hpj. by rewrite Hpj in Hi.
Qed.
Lemma head_filter i (d : list post) : match head (filter (λ p, p.1 = i) d) with Some p => p.1 = i ∧ p ∈ d | None => ∀ q, q ∈ d → q.1 ≠ i end.
Proof.
  destruct (filter (λ p, p.1 = i) d) as [|p l] eqn:E; simpl.
  - intros q Hq Hi. assert (q ∈ filter (λ p, p.1 = i) d) as H by (by apply elem_of_list_filter). rewrite E in H. by apply elem_of_nil in H.
  - assert (p ∈ filter (λ p, p.1 = i) d) as H by (rewrite E; set_solver). by apply elem_of_list_filter in H as [? ?].
Qed.
Definition cache_ok (d : list post) (c : gmap Z post) : Prop := ∀ k p, c !! k = Some p → p.1 = k ∧ p ∈ d.
Lemma act_stage d0 d c o p f n d' c' p' : d0 ⊆ d → cache_ok d c → stage d0 d o p → act p f n d c = (d', c', p') →
  (∃ x, d' = d ++ x ∧ (∀ q, q ∈ x → o = StorePost q)) ∧ cache_ok d' c' ∧ stage d0 d' o p'.
Proof.
  intros Hsub Hc Hs Ha.
  assert (∀ c' p', act p f n d c = (d, c', p') → cache_ok d c' → stage d0 d o p' → (d, c', p') = (d', c', p') →
    (∃ x, d' = d ++ x ∧ (∀ q, q ∈ x → o = StorePost q)) ∧ cache_ok d' c' ∧ stage d0 d' o p') as Hsame.
  { intros c2 p2 _ Hc2 Hs2 E. injection E as <-. split; [|done]. exists []. split; [by rewrite app_nil_r|]. intros q Hq. by apply elem_of_nil in Hq. }
  assert (∀ k, read_ok d k (match (if fine f then match c !! k with Some p => Hit p | None => Miss end else Err) with Hit p => p | _ => no_post end)) as Hread.
  { intros k. destruct (fine f); [|by left]. destruct (c !! k) as [q|] eqn:E; [right; by apply Hc|by left]. }
  destruct Hs as [o|p|p Hp|i|i|i p Hi Hp|i Hn|is dn rest acc Hd Hacc|is ps l Hg Hps].
  - simpl in Ha. simplify_eq. apply Hsame; [done|done|apply s_failed|done].
  - simpl in Ha. destruct f; simpl in Ha; simplify_eq.
    + split; [exists [p]; split; [done|]; intros q Hq; apply elem_of_list_singleton in Hq; by subst|]. split; [|apply s_stored; set_solver].
      intros k q Hk. destruct (Hc _ _ Hk). split; [done|set_solver].
    + apply Hsame; [done|done|apply s_failed|done].
    + split; [exists [p]; split; [done|]; intros q Hq; apply elem_of_list_singleton in Hq; by subst|]. split; [|apply s_failed].
      intros k q Hk. destruct (Hc _ _ Hk). split; [done|set_solver].
  - simpl in Ha. simplify_eq. apply Hsame; [done|done|by apply s_stored|done].
  - simpl in Ha. simplify_eq. apply Hsame; [done|done| |done]. destruct (fine f); [|apply s_failed]. destruct (c' !! i) as [q|] eqn:E; [|apply s_find].
    destruct (Hc _ _ E). by apply s_one.
  - simpl in Ha. simplify_eq. apply Hsame; [done|done| |done]. destruct (fine f); [|apply s_failed]. pose proof (head_filter i d') as Hh.
    destruct (head _) as [q|]; [destruct Hh; by apply s_one|]. apply s_none. intros q Hq. by apply Hh, Hsub.
  - simpl in Ha. simplify_eq. apply Hsame; [done|done|by apply s_one|done].
  - simpl in Ha. simplify_eq. apply Hsame; [done|done|by apply s_none|done].
  - destruct rest as [|i rest]; cbn [mget] in Ha, Hsame.
    + rewrite app_nil_r in Hd. subst dn. unfold after_mget in Ha, Hsame. fold (left_of is acc) in Ha, Hsame. destruct (left_of is acc) as [|j js] eqn:El.
      * simpl in Ha. simplify_eq. apply Hsame; [done|done| |done]. apply (s_fill _ _ _ []); [by apply good_cached|set_solver].
      * cbn [act] in Ha, Hsame. simplify_eq. apply Hsame; [done|done| |done]. destruct (fine f); [|apply s_failed]. apply s_fill.
        -- rewrite <-El. by apply good_found.
        -- intros q Hq. by apply elem_of_list_filter in Hq as [_ ?].
    + cbn [act] in Ha, Hsame. simplify_eq. apply Hsame; [done|done| |done]. apply (s_mget _ _ _ (dn ++ [i])); [by rewrite <-app_assoc|].
      apply Forall2_app; [done|]. constructor; [apply Hread|constructor].
  - destruct ps as [|q ps]; cbn [fill] in Ha, Hsame.
    + simpl in Ha. simplify_eq. apply Hsame; [done|done| |done]. by apply (s_fill _ _ _ []).
    + cbn [act] in Ha, Hsame. destruct ((q :: ps) !! n) as [x|] eqn:E.
      * simplify_eq. apply Hsame; [done| | |done].
        -- destruct (done_by f); [|done]. intros k y [[<- <-]|[_ Hk]]%lookup_insert_Some; [split; [done|]; apply Hps; by eapply elem_of_list_lookup_2|by apply Hc].
        -- apply s_fill; [done|]. intros y Hy. apply Hps. apply elem_of_list_lookup in Hy as [m Hm]. destruct (decide (m < n)%nat).
           ++ rewrite lookup_delete_lt in Hm by done. by eapply elem_of_list_lookup_2.
           ++ rewrite lookup_delete_ge in Hm by lia. by eapply elem_of_list_lookup_2.
      * simplify_eq. apply Hsame; [done|done| |done]. by apply (s_fill _ _ _ (q :: ps)).
Qed.

(** ** Histories *)
Definition st (d0 d : list post) (o : op) (th : thread) : Prop :=
  match th with Running p => stage d0 d o p ∧ settle p = Running p | Done r => stage d0 d o (Ret r) | Gone => True end.
Lemma st_mono d0 d x o th : st d0 d o th → st d0 (d ++ x) o th.
Proof. destruct th; simpl; [intros [? ?]; split; [by apply stage_mono|done]|by apply stage_mono|done]. Qed.
Lemma st_settle d0 d o p : stage d0 d o p → st d0 d o (settle p).
Proof. destruct p; simpl; done. Qed.
Definition running (th : thread) : Prop := ∃ p, th = Running p.
Definition owned (calls : list (op * thread)) (p : post) (t : nat) : Prop := ∃ th, calls !! t = Some (StorePost p, th) ∧ ¬ running th.
Record inv (w : world) : Prop := {
  i_cache : cache_ok (w_db w) (w_cache w);
  i_st t o th : w_calls w !! t = Some (o, th) → st [] (w_db w) o th;
  i_own : ∃ ow, Forall2 (owned (w_calls w)) (w_db w) ow ∧ NoDup ow }.
Lemma inv_started : inv started.
Proof.
  split; simpl.
  - intros k p H. by rewrite lookup_empty in H.
  - intros t o th H. by rewrite lookup_nil in H.
  - exists []. split; constructor.
Qed.
Lemma owned_insert calls t o p0 th' p t' : calls !! t = Some (o, Running p0) → owned calls p t' → owned (<[t := (o, th')]> calls) p t' ∧ t' ≠ t.
Proof.
  intros Ht (th & Hth & Hr). assert (t' ≠ t) as Hne. { intros ->. simplify_eq. apply Hr. by eexists. }
  split; [|done]. exists th. by rewrite list_lookup_insert_ne.
Qed.
Lemma store_done d0 d p q f n c d' c' p' : stage d0 d (StorePost p) q → settle q = Running q → act q f n d c = (d', c', p') → ∃ r, p' = Ret r.
Proof.
  intros Hs Hr Ha. inversion Hs; subst; simpl in *; try done. destruct f; simpl in Ha; simplify_eq; eauto.
Qed.
Lemma act_one p f n d c d' c' p' x : act p f n d c = (d', c', p') → d' = d ++ x → x = [] ∨ ∃ q, x = [q].
Proof.
  intros Ha ->. assert (∀ y : list post, d ++ x = d ++ y → x = y) as Hinj by (intros y; apply app_inv_head).
  assert (d = d ++ x → x = []) as Hnil by (intros H; apply (Hinj []); by rewrite app_nil_r).
  destruct p as [r|k g|q k|i g|is g|ps k]; simpl in Ha; try (injection Ha as H1 _ _; left; by apply Hnil).
  - injection Ha as H1 _ _. destruct (done_by f); [right; exists q; by apply Hinj|left; by apply Hnil].
  - destruct (ps !! n); injection Ha as H1 _ _; left; by apply Hnil.
Qed.
Lemma inv_step e w w' : step e w = Some w' → inv w → inv w' ∧ ∃ x, w_db w' = w_db w ++ x.
Proof.
  intros Hs Hi. assert (∃ x, w_db w = w_db w ++ x) as Hsame by (exists []; by rewrite app_nil_r).
  destruct (i_own _ Hi) as (ow & Hown & Hnd).
  destruct e as [o|t f n|t|k]; simpl in Hs.
  - simplify_eq. split; [|done]. split; simpl; [apply (i_cache _ Hi)| |].
    + intros t o' th H. apply lookup_app_Some in H as [H|[_ H]]; [by apply (i_st _ Hi t)|]. apply list_lookup_singleton_Some in H as [_ H]. simplify_eq. apply st_settle, stage_program.
    + exists ow. split; [|done]. eapply Forall2_impl; [exact Hown|]. intros p t (th & Hth & Hr). exists th. split; [by apply lookup_app_l_Some|done].
  - destruct (w_calls w !! t) as [[o [p| |]]|] eqn:Ht; try done. destruct (act p f n (w_db w) (w_cache w)) as [[d' c'] p'] eqn:Ha. simplify_eq. simpl.
    destruct (i_st _ Hi _ _ _ Ht) as [Hst Hrun].
    destruct (act_stage [] _ _ _ _ _ _ _ _ _ (list_subseteq_nil _) (i_cache _ Hi) Hst Ha) as ((x & -> & Hx) & Hc' & Hst'). split; [|by eexists]. split; simpl; [done| |].
    + intros t' o' th H. apply list_lookup_insert_Some in H as [(->&H&_)|[_ H]]; [simplify_eq; by apply st_settle|by apply st_mono, (i_st _ Hi t')].
    + assert (t < length (w_calls w))%nat as Hlt by (by eapply lookup_lt_Some).
      assert (Forall2 (owned (<[t:=(o, settle p')]> (w_calls w))) (w_db w) ow) as Hown'.
      { eapply Forall2_impl; [exact Hown|]. intros q t' Hq. by destruct (owned_insert _ _ _ _ (settle p') _ _ Ht Hq). }
      destruct (act_one _ _ _ _ _ _ _ _ x Ha eq_refl) as [->|[q ->]].
      * exists ow. by rewrite app_nil_r.
      * rewrite (Hx q) in * by set_solver. destruct (store_done _ _ _ _ _ _ _ _ _ _ Hst Hrun Ha) as [r ->]. exists (ow ++ [t]). split.
        -- apply Forall2_app; [done|]. constructor; [|constructor]. exists (Done r). split; [by apply list_lookup_insert|]. by intros [? ?].
        -- apply NoDup_app. split; [done|]. split; [|apply NoDup_singleton]. intros t' Ht' Hx'. apply elem_of_list_singleton in Hx' as ->.
           apply elem_of_list_lookup in Ht' as [k Hk]. destruct (Forall2_lookup_r _ _ _ _ _ Hown Hk) as (q' & _ & Hq'). by destruct (owned_insert _ _ _ _ Gone _ _ Ht Hq').
  - destruct (w_calls w !! t) as [[o [p| |]]|] eqn:Ht; simplify_eq. split; [|done]. split; simpl; [apply (i_cache _ Hi)| |].
    + intros t' o' th H. apply list_lookup_insert_Some in H as [(->&H&_)|[_ H]]; [by simplify_eq|by apply (i_st _ Hi t')].
    + exists ow. split; [|done]. eapply Forall2_impl; [exact Hown|]. intros q t' Hq. by destruct (owned_insert _ _ _ _ Gone _ _ Ht Hq).
  - simplify_eq. split; [|done]. split; simpl; [|apply (i_st _ Hi)|by exists ow]. intros k' p H. apply lookup_delete_Some in H as [_ H]. by apply (i_cache _ Hi).
Qed.
Lemma inv_run w es w' : run w es w' → inv w → inv w' ∧ ∃ x, w_db w' = w_db w ++ x.
Proof.
  intros Hr Hi. induction Hr as [w|w es w1 e w2 Hr IH Hs]; [split; [done|]; exists []; by rewrite app_nil_r|].
  destruct (IH Hi) as [Hi1 [x Hx]]. destruct (inv_step _ _ _ Hs Hi1) as [Hi2 [y Hy]]. split; [done|]. exists (x ++ y). by rewrite Hy, Hx, app_assoc.
Qed.
Lemma watch_step e w w' d0 t o th : step e w = Some w' → inv w → d0 ⊆ w_db w → w_calls w !! t = Some (o, th) → st d0 (w_db w) o th →
  ∃ th', w_calls w' !! t = Some (o, th') ∧ st d0 (w_db w') o th'.
Proof.
  intros Hs Hi Hsub Ht Hst. destruct e as [o1|t1 f n|t1|k]; simpl in Hs.
  - simplify_eq. exists th. split; [by apply lookup_app_l_Some|done].
  - destruct (w_calls w !! t1) as [[o1 [p| |]]|] eqn:Ht1; try done. destruct (act p f n (w_db w) (w_cache w)) as [[d' c'] p'] eqn:Ha. simplify_eq. simpl.
    destruct (i_st _ Hi _ _ _ Ht1) as [Hst1 _]. destruct (decide (t1 = t)) as [->|Hne].
    + simplify_eq. destruct Hst as [Hst _]. destruct (act_stage d0 _ _ _ _ _ _ _ _ _ Hsub (i_cache _ Hi) Hst Ha) as (_ & _ & Hst'). exists (settle p').
      split; [apply list_lookup_insert; by eapply lookup_lt_Some|by apply st_settle].
    + destruct (act_stage [] _ _ _ _ _ _ _ _ _ (list_subseteq_nil _) (i_cache _ Hi) Hst1 Ha) as ((x & -> & _) & _ & _). exists th.
      split; [by rewrite list_lookup_insert_ne|by apply st_mono].
  - destruct (w_calls w !! t1) as [[o1 [p| |]]|] eqn:Ht1; simplify_eq. simpl. destruct (decide (t1 = t)) as [->|Hne].
    + simplify_eq. exists Gone. split; [apply list_lookup_insert; by eapply lookup_lt_Some|done].
    + exists th. split; [by rewrite list_lookup_insert_ne|done].
  - simplify_eq. eauto.
Qed.
Lemma watch_run w es w' d0 t o th : run w es w' → inv w → d0 ⊆ w_db w → w_calls w !! t = Some (o, th) → st d0 (w_db w) o th →
  ∃ th', w_calls w' !! t = Some (o, th') ∧ st d0 (w_db w') o th'.
Proof.
  intros Hr Hi Hsub Ht Hst. induction Hr as [w|w es w1 e w2 Hr IH Hs]; [eauto|]. destruct (IH Hi Hsub Ht Hst) as (th1 & Ht1 & Hst1).
  destruct (inv_run _ _ _ Hr Hi) as [Hi1 [x Hx]]. eapply watch_step; eauto. rewrite Hx. set_solver.
Qed.
Lemma around_stage es1 w1 o es2 w2 r : around es1 w1 o es2 w2 → answered w2 (length (w_calls w1)) o r → stage (w_db w1) (w_db w2) o (Ret r) ∧ inv w1 ∧ inv w2.
Proof.
  intros (Hh & w1' & Hs & Hr) Ha. destruct (inv_run _ _ _ Hh inv_started) as [Hi _]. destruct (inv_step _ _ _ Hs Hi) as [Hi' _]. destruct (inv_run _ _ _ Hr Hi') as [Hi2 _].
  split; [|done]. simpl in Hs. injection Hs as <-.
  destruct (watch_run _ _ _ (w_db w1) (length (w_calls w1)) o (settle (program o)) Hr Hi') as (th & Ht & Hst); simpl.
  - done.
  - by rewrite lookup_app_r, Nat.sub_diag.
  - apply st_settle, stage_program.
  - unfold answered in Ha. simplify_eq. exact Hst.
Qed.
Lemma stored_called w p : inv w → p ∈ w_db w → called w (StorePost p).
Proof.
  intros Hi Hp. destruct (i_own _ Hi) as (ow & Hown & _). apply elem_of_list_lookup in Hp as [k Hk].
  destruct (Forall2_lookup_l _ _ _ _ _ Hown Hk) as (t & _ & th & Hth & _). by exists t, th.
Qed.
Lemma stored_acked w t p : inv w → answered w t (StorePost p) Ok → p ∈ w_db w.
Proof. intros Hi Ha. pose proof (i_st _ Hi _ _ _ Ha) as Hst. simpl in Hst. by inversion Hst. Qed.
Lemma stored_unique w : inv w → own_ids w → NoDup (w_db w).*1.
Proof.
  intros Hi Ho. destruct (i_own _ Hi) as (ow & Hown & Hnd). apply NoDup_alt. intros a b i Ha Hb. rewrite list_lookup_fmap in Ha, Hb.
  apply fmap_Some in Ha as (p & Hp & ->). apply fmap_Some in Hb as (q & Hq & Epq).
  destruct (Forall2_lookup_l _ _ _ _ _ Hown Hp) as (t1 & Ht1 & th1 & H1 & _). destruct (Forall2_lookup_l _ _ _ _ _ Hown Hq) as (t2 & Ht2 & th2 & H2 & _).
  rewrite (Ho _ _ _ _ _ _ H1 H2 Epq) in Ht1. by eapply NoDup_lookup.
Qed.
Lemma same_post (d : list post) p q : NoDup d.*1 → p ∈ d → q ∈ d → p.1 = q.1 → p = q.
Proof.
  intros Hn Hp Hq E. apply elem_of_list_lookup in Hp as [a Ha]. apply elem_of_list_lookup in Hq as [b Hb].
  assert (a = b) as ->; [|by simplify_eq]. eapply (NoDup_lookup _ _ _ p.1 Hn); rewrite list_lookup_fmap; [by rewrite Ha|by rewrite Hb, E].
Qed.
Lemma posts_good es1 w1 is es2 w2 l : around es1 w1 (ReadPosts is) es2 w2 → answered w2 (length (w_calls w1)) (ReadPosts is) (Posts l) → good (w_db w1) (w_db w2) is l.
Proof.
  intros Har Ha. destruct (around_stage _ _ _ _ _ _ Har Ha) as (Hst & _ & _). remember (Ret (Posts l)) as p eqn:E. remember (ReadPosts is) as o eqn:Eo.
  destruct Hst as [| | | | | | |is' dn rest acc Hd Hacc|is' ps l' Hg Hps]; try done; simplify_eq.
  - destruct rest as [|i rest]; [|done]. rewrite app_nil_r in *. simpl in E. unfold after_mget in E. fold (left_of dn acc) in E.
    destruct (left_of dn acc) eqn:El; [|done]. simplify_eq. by apply good_cached.
  - destruct ps; simpl in E; by simplify_eq.
Qed.
