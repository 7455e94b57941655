(** * Proofs about rates and profiles *)
From Verif Require Export HotelInfo_Spec.
From stdpp Require Export list.
Set Default Proof Using "Type".

(** Where a call is, when values that satisfy [P] can be found *)
Inductive stage (P : kind → string → list item → Prop) : op → prog → Prop :=
  | s_failed o : stage P o (Ret Failed)
  | s_get k dn ids vs : Forall2 (P k) dn vs → stage P (Get k (dn ++ ids)) (get k ids (concat vs))
  | s_find k dn i ids vs : Forall2 (P k) dn vs → stage P (Get k (dn ++ i :: ids)) (DFind k i (λ v, CPut k i v (get k ids (concat vs ++ v))))
  | s_put k dn i ids vs v : Forall2 (P k) dn vs → P k i v → stage P (Get k (dn ++ i :: ids)) (CPut k i v (get k ids (concat vs ++ v))).
Lemma stage_mono (P Q : kind → string → list item → Prop) o p : (∀ k i v, P k i v → Q k i v) → stage P o p → stage Q o p.
Proof.
  intros H Hs. assert (∀ k dn vs, Forall2 (P k) dn vs → Forall2 (Q k) dn vs) as Hf by (intros k dn vs X; eapply Forall2_impl; [exact X|auto]).
  destruct Hs; [apply s_failed|apply s_get; auto|apply s_find; auto|apply s_put; auto].
Qed.
Lemma next (P : kind → string → list item → Prop) k dn i ids vs v : Forall2 (P k) dn vs → P k i v → stage P (Get k (dn ++ i :: ids)) (get k ids (concat vs ++ v)).
Proof.
  intros Hf Hv. replace (dn ++ i :: ids) with ((dn ++ [i]) ++ ids) by (by rewrite <-app_assoc). replace (concat vs ++ v) with (concat (vs ++ [v])) by (by rewrite concat_app; simpl; rewrite app_nil_r).
  apply s_get. apply Forall2_app; [done|]. by repeat constructor.
Qed.
Lemma said (P : kind → string → list item → Prop) k ids l : stage P (Get k ids) (Ret (Got l)) → ∃ vs, Forall2 (P k) ids vs ∧ l = concat vs.
Proof.
  intros H. remember (Get k ids) as o eqn:Eo. remember (Ret (Got l)) as p eqn:Ep. destruct H as [|k' dn rest vs Hf| |]; try done.
  destruct rest; [|done]. simpl in Ep. injection Ep as <-. injection Eo as -> <-. rewrite app_nil_r. eauto.
Qed.
Definition cache_ok (P : kind → string → list item → Prop) (c : gmap (kind * string) (list item)) : Prop := ∀ k i v, c !! (k, i) = Some v → P k i v.
Lemma stage_act (P : kind → string → list item → Prop) o p f db c : (∀ k i, P k i (found k i (db k))) → (f = Unread → ∀ k i, P k i (unread k)) → cache_ok P c → stage P o p →
  cache_ok P (act p f db c).1 ∧ stage P o (act p f db c).2.
Proof.
  intros Hfound Hun Hc H. destruct H as [o|k dn ids vs Hf|k dn i ids vs Hf|k dn i ids vs v Hf Hv]; simpl.
  - split; [done|apply s_failed].
  - destruct ids as [|i ids]; simpl; (split; [done|]); [by apply (s_get P k dn [] vs)|]. destruct f; try apply s_failed. destruct (c !! (k, i)) as [v|] eqn:E.
    + apply next; [done|]. by apply Hc.
    + by apply s_find.
  - split; [done|]. destruct f; try apply s_failed; apply s_put; auto.
  - split; [|by apply next]. assert (cache_ok P (<[(k, i) := v]> c)) as Hc'; [|by destruct f].
    intros k' i' v'. rewrite lookup_insert_Some. intros [[[= <- <-] <-]|[_ ?]]; [done|by apply Hc].
Qed.
Definition call_ok (P : kind → string → list item → Prop) (o : op) (th : thread) : Prop := match th with Running p => stage P o p | Done r => stage P o (Ret r) | Gone => True end.
Definition inv (P : kind → string → list item → Prop) (w : world) : Prop := cache_ok P (w_cache w) ∧ ∀ t o th, w_calls w !! t = Some (o, th) → call_ok P o th.
Lemma settle_ok (P : kind → string → list item → Prop) o p : stage P o p → call_ok P o (settle p).
Proof. by destruct p. Qed.
Lemma stage_program (P : kind → string → list item → Prop) o : stage P o (program o).
Proof. destruct o as [k ids]. apply (s_get P k [] ids []). constructor. Qed.
Lemma inv_mono (P Q : kind → string → list item → Prop) w : (∀ k i v, P k i v → Q k i v) → inv P w → inv Q w.
Proof.
  intros H [Hc Hcalls]. split; [intros k i v Hv; by apply H, Hc|]. intros t o th Ht. specialize (Hcalls t o th Ht). destruct th; simpl in *; try done; by eapply stage_mono.
Qed.
Lemma inv_step (P : kind → string → list item → Prop) e w w' : (∀ k i, P k i (found k i (w_db w k))) → (∀ t, e = Step t Unread → ∀ k i, P k i (unread k)) → inv P w → step e w = Some w' → inv P w'.
Proof.
  intros Hfound Hun [Hc Hcalls] H. destruct e as [k l|o|t f|t|k i]; simpl in H.
  - injection H as <-. done.
  - injection H as <-. split; [done|]. simpl. intros t o' th Ht. apply lookup_app_Some in Ht as [Ht|[_ Ht]]; [by eapply Hcalls|].
    apply list_lookup_singleton_Some in Ht as [_ [= <- <-]]. apply settle_ok, stage_program.
  - destruct (w_calls w !! t) as [[o [p|r|]]|] eqn:Et; try done. destruct (act p f (w_db w) (w_cache w)) as [c p'] eqn:Ea. injection H as <-.
    destruct (stage_act P o p f (w_db w) (w_cache w) Hfound) as [H1 H2]; [intros ->; by eapply Hun|done|exact (Hcalls t o _ Et)|]. rewrite Ea in H1, H2. split; [done|]. simpl.
    intros t' o' th Ht. apply list_lookup_insert_Some in Ht as [(<- & [= <- <-] & _)|[_ Ht]]; [by apply settle_ok|by eapply Hcalls].
  - destruct (w_calls w !! t) as [[o [p|r|]]|] eqn:Et; try done. injection H as <-. split; [done|]. simpl.
    intros t' o' th Ht. apply list_lookup_insert_Some in Ht as [(<- & [= <- <-] & _)|[_ Ht]]; [done|by eapply Hcalls].
  - injection H as <-. split; [|done]. simpl. intros k' i' v [_ Hi]%lookup_delete_Some. by apply Hc.
Qed.
Lemma db_step e w w' k : step e w = Some w' → w_db w' k = match e with Load k' l => if decide (k = k') then w_db w k ++ l else w_db w k | _ => w_db w k end.
Proof.
  destruct e as [k' l|o|t f|t|k' i]; simpl; try (by intros [= <-]); destruct (w_calls w !! t) as [[o [p|r|]]|]; try done; [destruct (act _ _ _ _)|]; by intros [= <-].
Qed.

(** ** Whatever happens *)
Definition from (db : kind → list item) (k : kind) (i : string) (v : list item) : Prop := ∀ x, x ∈ v → x.1 = i ∧ x ∈ db k ∨ k = Profile ∧ x = no_item.
Lemma from_found db k i : from db k i (found k i (db k)).
Proof.
  intros x. destruct k; simpl.
  - intros [? ?]%elem_of_list_filter. by left.
  - destruct (filter _ (db Profile)) as [|y l] eqn:E; simpl; intros ->%elem_of_list_singleton; [by right|left].
    assert (y ∈ y :: l) as Hy by (by left). rewrite <-E in Hy. by apply elem_of_list_filter in Hy.
Qed.
Lemma from_unread db k i : from db k i (unread k).
Proof. intros x. destruct k; simpl; [intros []%elem_of_nil|]. intros ->%elem_of_list_singleton. by right. Qed.
Lemma from_history es w : history es w → inv (from (w_db w)) w ∧ ∀ k x, x ∈ w_db w k → inserted es k x.
Proof.
  assert (∀ w0 es w, run w0 es w → inv (from (w_db w0)) w0 → (∀ k, w_db w0 k = []) → inv (from (w_db w)) w ∧ ∀ k x, x ∈ w_db w k → inserted es k x) as Hx.
  { clear. intros w0 es w H H0 Hnil. induction H as [w|w es w1 e w2 Hr IH Hs].
    - split; [done|]. intros k x. rewrite Hnil. intros []%elem_of_nil.
    - destruct (IH H0 Hnil) as [Hi Hin]. split.
      + eapply (inv_step _ e w1); [| | |done].
        * intros k i x Hx. destruct (from_found (w_db w1) k i x Hx) as [[? ?]|?]; [|by right]. left. split; [done|]. rewrite (db_step _ _ _ _ Hs). destruct e; try done. case_decide; [apply elem_of_app; by left|done].
        * intros t _ k i. apply from_unread.
        * eapply inv_mono; [|exact Hi]. intros k i v Hv x Hx. destruct (Hv x Hx) as [[? ?]|?]; [|by right]. left. split; [done|]. rewrite (db_step _ _ _ _ Hs). destruct e; try done. case_decide; [apply elem_of_app; by left|done].
      + intros k x. rewrite (db_step _ _ _ _ Hs). assert (x ∈ w_db w1 k → inserted (es ++ [e]) k x) as Hold.
        { intros Hx. destruct (Hin _ _ Hx) as (l & ? & ?). exists l. split; [apply elem_of_app; by left|done]. }
        destruct e as [k' l|o|t f|t|k' i]; try done. case_decide as Hd; [|done]. subst k'. intros [Hx|Hx]%elem_of_app; [by apply Hold|]. exists l. split; [apply elem_of_app; right; by left|done]. }
  intros H. apply (Hx started); [done| |done]. split; [|intros t o th; simpl; by rewrite lookup_nil]. intros k i v. simpl. by rewrite lookup_empty.
Qed.

(** ** When documents do not change and results can be read *)
Definition exact (k0 : kind) (data : list item) (k : kind) (i : string) (v : list item) : Prop := k = k0 → v = found k i data.
Lemma run_cons w e es w2 : run w (e :: es) w2 → ∃ w1, step e w = Some w1 ∧ run w1 es w2.
Proof.
  intros H. remember (e :: es) as l eqn:E. revert e es E. induction H as [w|w es0 w1 e0 w2 Hr IH Hs]; intros e es E; [done|]. destruct es0 as [|x es0]; simpl in E.
  - injection E as -> <-. assert (∀ a l b, run a l b → l = [] → a = b) as Hnil by (intros a l b []; [done|]; by intros ?%app_nil%proj2).
    rewrite (Hnil _ _ _ Hr eq_refl). exists w2. split; [done|constructor].
  - injection E as -> <-. destruct (IH _ _ eq_refl) as (v & ? & ?). exists v. split; [done|]. by eapply run_snoc.
Qed.
Lemma exact_history k data es w : history es w → calm k data es → inv (exact k data) w.
Proof.
  intros H (es' & -> & Hcalm). apply run_cons in H as (w1 & Hs & Hr).
  assert (w_db w1 k = data) as Hd. { rewrite (db_step _ _ _ _ Hs). by rewrite decide_True. }
  assert (inv (exact k data) w1) as Hi. { injection Hs as <-. split; [|intros t o th; simpl; by rewrite lookup_nil]. intros k' i v. simpl. by rewrite lookup_empty. }
  clear Hs. revert Hcalm.
  enough (Forall (λ e, match e with Load k' _ => k' ≠ k | Step _ f => f ≠ Unread | _ => True end) es' → inv (exact k data) w ∧ w_db w k = data) by tauto.
  induction Hr as [w|w es w1 e w2 Hr IH Hs]; [done|]. intros [Hc1 Hc2]%Forall_app. destruct (IH Hd Hi Hc1) as [Hi1 Hd1]. rewrite Forall_singleton in Hc2. split.
  - eapply (inv_step _ e w1); [| |done|done].
    + intros k' i ->. by rewrite Hd1.
    + intros t -> . done.
  - rewrite (db_step _ _ _ _ Hs). destruct e; try done. by rewrite decide_False.
Qed.
Lemma found_right k data i : right k data i (found k i data).
Proof.
  destruct k; simpl; [done|]. induction data as [|x data IH]; [right; split; [done|]; intros y []%elem_of_nil|]. rewrite filter_cons. case_decide as Hx.
  - left. exists x, [], data. split; [done|]. split; [done|]. split; [done|]. intros y []%elem_of_nil.
  - destruct IH as [(y & l1 & l2 & E & -> & Hy & Hl)|[E Hn]].
    + left. exists y, (x :: l1), l2. split; [done|]. split; [done|]. split; [done|]. intros z [-> |Hz]%elem_of_cons; [done|by apply Hl].
    + right. split; [done|]. intros y [-> |Hy]%elem_of_cons; [done|by apply Hn].
Qed.
(** ** Calls that run have not ended *)
Lemma running_history es w t o p : history es w → w_calls w !! t = Some (o, Running p) → p ≠ Ret Failed.
Proof.
  intros H. assert (∀ w0 es w, run w0 es w → w0 = started → ∀ t o p, w_calls w !! t = Some (o, Running p) → ∀ r, p ≠ Ret r) as Hx; [|intros Ht; by eapply Hx].
  clear. intros w0 es w H E. assert (∀ p q a, settle p = Running q → q ≠ Ret a) as Hset by (intros [] q a; simpl; intros H0; congruence).
  induction H as [w|w es w1 e w2 Hr IH Hs]; subst w; [intros t o p; simpl; by rewrite lookup_nil|]. specialize (IH eq_refl). intros t o p Ht r. destruct e as [k l|o'|t' f|t'|k i]; simpl in Hs.
  - injection Hs as <-. by eapply IH.
  - injection Hs as <-. simpl in Ht. apply lookup_app_Some in Ht as [Ht|[_ Ht]]; [by eapply IH|]. apply list_lookup_singleton_Some in Ht as [_ Ht]. eapply Hset. by injection Ht.
  - destruct (w_calls w1 !! t') as [[o' [q|?|]]|] eqn:Et; try done. destruct (act q f (w_db w1) (w_cache w1)) as [c q']. injection Hs as <-. simpl in Ht.
    apply list_lookup_insert_Some in Ht as [(_ & Hq & _)|[_ Ht]]; [|by eapply IH]. eapply Hset. by injection Hq.
  - destruct (w_calls w1 !! t') as [[o' [q|?|]]|] eqn:Et; try done. injection Hs as <-. simpl in Ht. apply list_lookup_insert_Some in Ht as [(_ & ? & _)|[_ Ht]]; [done|by eapply IH].
  - injection Hs as <-. by eapply IH.
Qed.
