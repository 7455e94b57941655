From Verif Require Import HomeTL_Model HomeTL_Spec.
From stdpp Require Import list.
Set Default Proof Using "Type".
Open Scope Z_scope.

(** ** The recipients *)
Lemma followers_set_elem x fs ms : x ∈ followers_set fs ms ↔ x ∈ fs ∨ x ∈ ms.
Proof.
  unfold followers_set. assert (∀ l (s : gset Z), x ∈ foldl (λ s x, {[x]} ∪ s) s l ↔ x ∈ l ∨ x ∈ s) as H.
  { induction l as [|y l IH]; intros s; simpl; [set_solver|]. rewrite IH. set_solver. }
  rewrite !H. set_solver.
Qed.

(** ** What is still to be written *)
Inductive ahead (x : Z) : prog → Prop :=
  | ahead_followers u m p : ahead x (Followers u m p)
  | ahead_put v p : ahead x (Put x v p)
  | ahead_put' k v p : ahead x p → ahead x (Put k v p)
  | ahead_get k f l : ahead x (f l) → ahead x (Get k f)
  | ahead_posts ids p : ahead x p → ahead x (ReadPosts ids p).
Lemma ahead_deliver x p ids : ahead x (deliver p ids) ↔ x ∈ ids.
Proof.
  induction ids as [|y ids IH]; simpl; [split; [inversion 1|by intros ?%elem_of_nil]|]. rewrite elem_of_cons, <-IH. split.
  - inversion 1 as [| | |? ? ? H'|]; subst. inversion H'; subst; auto.
  - intros [->|?]; apply (ahead_get _ _ _ []); [apply ahead_put|by apply ahead_put'].
Qed.
Definition thread_ahead (x : Z) (th : thread) : Prop := ∃ p, th = Running p ∧ ahead x p.
Lemma settle_ahead x p : thread_ahead x (settle p) → ahead x p.
Proof. intros (q & H & Hq). destruct p; simpl in H; try done; by injection H as <-. Qed.

(** ** Steps *)
Inductive act (t : nat) (w : world) : event → prog → thread → gmap Z (list post) → Prop :=
  | act_told u m q fs ord : NoDup ord → list_to_set ord = m fs → act t w (Told t fs ord) (Followers u m q) (settle (q ord)) (w_cache w)
  | act_fail e p th : (∀ fs ord, e ≠ Told t fs ord) → th = Done Failed ∨ th = Gone → act t w e p th (w_cache w)
  | act_get f k g : act t w (Step t f) (Get k g) (settle (g (timeline w k))) (w_cache w)
  | act_put f k v q th : th = settle q ∨ th = Done Failed → act t w (Step t f) (Put k v q) th (<[k := v]> (w_cache w))
  | act_posts f ids q : act t w (Step t f) (ReadPosts ids q) (settle q) (w_cache w).
Inductive moved (w : world) : event → world → Prop :=
  | Mstart o : moved w (Start o) (World (w_cache w) (w_calls w ++ [(o, settle (program o))]))
  | Mact e t o p th c : w_calls w !! t = Some (o, Running p) → act t w e p th c → (∀ t' fs ord, e = Told t' fs ord → t' = t) → (∀ t' f, e = Step t' f → t' = t) →
      (∀ o, e ≠ Start o) → (∀ k, e ≠ Evict k) → moved w e (World c (<[t := (o, th)]> (w_calls w)))
  | Mevict k : moved w (Evict k) (World (delete k (w_cache w)) (w_calls w)).
Lemma step_moved e w w' : step e w = Some w' → moved w e w'.
Proof.
  destruct e as [o|t fs ord|t f|t|k]; simpl.
  - intros [= <-]. constructor.
  - destruct (w_calls w !! t) as [[o [[|u m p| | |]| |]]|] eqn:Ht; try done. case_bool_decide as Hb; [|done]. destruct Hb as [? ?].
    intros [= <-]. eapply Mact; [done|by apply act_told|naive_solver..].
  - destruct (w_calls w !! t) as [[o [p| |]]|] eqn:Ht; try done. destruct p as [r|u m p|k g|k v p|ids p]; try done.
    + destruct (fine f); [done|]. intros [= <-]. eapply Mact; [done|apply act_fail; [done|by left]|naive_solver..].
    + intros [= <-]. destruct (fine f); (eapply Mact; [done| |naive_solver..]); [apply act_get|apply act_fail; [done|by left]].
    + intros [= <-]. destruct f; simpl; (eapply Mact; [done| |naive_solver..]); [apply act_put; by left|apply act_fail; [done|by left]|apply act_put; by right].
    + intros [= <-]. destruct (fine f); (eapply Mact; [done| |naive_solver..]); [apply act_posts|apply act_fail; [done|by left]].
  - destruct (w_calls w !! t) as [[o [p| |]]|] eqn:Ht; try done. intros [= <-]. eapply Mact; [done|apply act_fail; [done|by right]|naive_solver..].
  - intros [= <-]. constructor.
Qed.
Lemma act_ahead t w e p th c x : act t w e p th c → thread_ahead x th → ahead x p.
Proof.
  destruct 1 as [u m q fs ord ? ?|e p th ? [->| ->]|f k g|f k v q th [->| ->]|f ids q]; intros Ha.
  - constructor.
  - by destruct Ha as (? & ? & _).
  - by destruct Ha as (? & ? & _).
  - apply settle_ahead in Ha. by eapply ahead_get.
  - apply settle_ahead in Ha. by apply ahead_put'.
  - by destruct Ha as (? & ? & _).
  - apply settle_ahead in Ha. by constructor.
Qed.

(** ** Whose timelines, and what *)
Lemma update_cases (l : list (op * thread)) t o th th' t' x : l !! t = Some (o, th) → <[t := (o, th')]> l !! t' = Some x →
  (t' = t ∧ x = (o, th')) ∨ (t' ≠ t ∧ l !! t' = Some x).
Proof.
  intros H. destruct (decide (t' = t)) as [->|].
  - rewrite list_lookup_insert by by eapply lookup_lt_Some. intros [= <-]. by left.
  - rewrite list_lookup_insert_ne by done. by right.
Qed.
Lemma snoc_cases (l : list (op * thread)) x t y : (l ++ [x]) !! t = Some y → (t = length l ∧ y = x) ∨ l !! t = Some y.
Proof. intros [H|[Hl H]]%lookup_app_Some; [by right|]. left. apply list_lookup_singleton_Some in H as [? ->]. split; [lia|done]. Qed.
Lemma moved_op w e w' t o th : moved w e w' → w_calls w !! t = Some (o, th) → ∃ th', w_calls w' !! t = Some (o, th').
Proof.
  destruct 1 as [o'|e t' o' p th' c Ht _ _ _ _ _|k]; simpl; intros H; [|destruct (decide (t' = t)) as [->|]|eauto].
  - exists th. rewrite lookup_app_l; [done|by eapply lookup_lt_Some].
  - exists th'. rewrite list_lookup_insert by by eapply lookup_lt_Some. congruence.
  - exists th. by rewrite list_lookup_insert_ne.
Qed.
Lemma for_user_step es w e w' t x : moved w e w' → for_user es w t x → for_user (es ++ [e]) w' t x.
Proof.
  intros Hm (pid & uid & ts & ms & th & fs & ord & Ht & Hin & Hx). destruct (moved_op _ _ _ _ _ _ Hm Ht) as [th' ?].
  exists pid, uid, ts, ms, th', fs, ord. split; [done|]. split; [apply elem_of_app; by left|done].
Qed.
Lemma posted_step w e w' t p : moved w e w' → posted w t p → posted w' t p.
Proof. intros Hm (uid & ms & th & Ht). destruct (moved_op _ _ _ _ _ _ Hm Ht) as [th' ?]. by exists uid, ms, th'. Qed.
Definition to_come (w : world) (t : nat) (x : Z) : Prop := ∃ o th, w_calls w !! t = Some (o, th) ∧ thread_ahead x th.
Lemma to_come_step w e w' t x o th : moved w e w' → w_calls w !! t = Some (o, th) → to_come w' t x → to_come w t x.
Proof.
  intros Hm Ht (o' & th' & Ht' & Ha). destruct Hm as [o1|e t1 o1 p th1 c Ht1 Hact _ _ _ _|k]; simpl in Ht'.
  - rewrite lookup_app_l in Ht' by by eapply lookup_lt_Some. by exists o', th'.
  - apply (update_cases _ _ _ _ _ _ _ Ht1) in Ht' as [[-> [= -> ->]]|[_ ?]]; [|by exists o', th'].
    exists o1, (Running p). split; [done|]. exists p. split; [done|]. by eapply act_ahead.
  - by exists o', th'.
Qed.
(** The list is made of the posts of different calls that are done with this timeline *)
Definition rep (es : list event) (w : world) (x : Z) (l : list nat) (v : list post) : Prop :=
  NoDup l ∧ Forall2 (posted w) l v ∧ ∀ t, t ∈ l → for_user es w t x ∧ ¬ to_come w t x.
Lemma rep_step es w e w' x l v : moved w e w' → rep es w x l v → rep (es ++ [e]) w' x l v.
Proof.
  intros Hm (Hn & Hp & Ht). split; [done|]. split.
  - eapply Forall2_impl; [done|]. intros ? ?. by eapply posted_step.
  - intros t Hin. destruct (Ht t Hin) as [Hf Hc]. split; [by eapply for_user_step|]. intros H. apply Hc.
    destruct Hf as (? & ? & ? & ? & th & ? & ? & Hth & _). by eapply to_come_step.
Qed.
Lemma rep_nil es w x : rep es w x [] [].
Proof. split; [constructor|]. split; [constructor|]. by intros ? ?%elem_of_nil. Qed.

(** ** Shapes *)
Definition shape (es : list event) (w : world) (t : nat) (o : op) (th : thread) : Prop :=
  match o with
  | Write pid uid ts ms =>
      th = Done Failed ∨ th = Gone ∨ th = Running (write pid uid ts ms) ∨
      (∃ rem, th = settle (deliver (pid, ts) rem) ∧ NoDup rem ∧ ∀ x, x ∈ rem → for_user es w t x) ∨
      (∃ k rem v l, th = Running (Put k (v ++ [(pid, ts)]) (deliver (pid, ts) rem)) ∧ NoDup (k :: rem) ∧ (∀ x, x ∈ k :: rem → for_user es w t x) ∧ rep es w k l v)
  | Read u a b => th = Gone ∨ (∃ r, th = Done r) ∨ th = settle (read u a b) ∨ ∃ ids, th = Running (ReadPosts ids (Ret (Ids ids)))
  end.
Definition inv (es : list event) (w : world) : Prop :=
  (∀ x, ∃ l, rep es w x l (timeline w x)) ∧
  (∀ t o th, w_calls w !! t = Some (o, th) → shape es w t o th) ∧
  (∀ t fs ord, Told t fs ord ∈ es → ∃ o th, w_calls w !! t = Some (o, th) ∧ ∀ u m p, th ≠ Running (Followers u m p)).

Lemma shape_step es w e w' t o th : moved w e w' → shape es w t o th → shape (es ++ [e]) w' t o th.
Proof.
  intros Hm. destruct o as [pid uid ts ms|u a b]; [|done]. intros [?|[?|[?|[(rem & ? & ? & Hf)|(k & rem & v & l & ? & ? & Hf & Hr)]]]]; simpl; auto.
  - do 3 right. left. exists rem. split; [done|]. split; [done|]. intros x Hx. eapply for_user_step; [done|by apply Hf].
  - do 4 right. exists k, rem, v, l. split; [done|]. split; [done|]. split; [|by eapply rep_step].
    intros x Hx. eapply for_user_step; [done|by apply Hf].
Qed.
Lemma shape_act es w e w' t o p th c : moved w e w' → w' = World c (<[t := (o, th)]> (w_calls w)) → inv es w → w_calls w !! t = Some (o, Running p) →
  act t w e p th c → shape (es ++ [e]) w' t o th.
Proof.
  intros Hm Ew (Hrep & Hsh & _) Ht Ha. pose proof (shape_step _ _ _ _ _ _ _ Hm (Hsh _ _ _ Ht)) as Hs. pose proof (Hsh _ _ _ Ht) as Hs0.
  assert (w_calls w' !! t = Some (o, th)) as Ht' by (subst w'; apply list_lookup_insert; by eapply lookup_lt_Some).
  destruct o as [pid uid ts ms|u a b].
  - assert (∀ rem, Running p = settle (deliver (pid, ts) rem) → NoDup rem → (∀ x, x ∈ rem → for_user (es ++ [e]) w' t x) →
      ∃ k rem', rem = k :: rem' ∧ p = deliver (pid, ts) rem) as Hd.
    { intros [|k rem] Hp _ _; [done|]. injection Hp as ->. by exists k, rem. }
    destruct Ha as [u m q fs ord Hnd Hset|e p th ? [->| ->]|f k g|f k v q th Hth|f ids q]; simpl; auto.
    + destruct Hs as [?|[?|[Hp|[(rem & Hp & Hn & Hf)|(k & rem & v & l & ? & _)]]]]; try done.
      * injection Hp as -> -> ->. do 3 right. left. exists ord. split; [done|]. split; [done|]. intros x Hx.
        exists pid, uid, ts, ms, (settle (deliver (pid, ts) ord)), fs, ord. split; [done|]. split; [apply elem_of_app; right; by left|].
        apply followers_set_elem. rewrite <-Hset. by apply elem_of_list_to_set.
      * destruct (Hd _ Hp Hn Hf) as (k & rem' & -> & ?). done.
    + destruct Hs as [?|[?|[Hp|[(rem & Hp & Hn & Hf)|(k' & rem & v & l & ? & _)]]]]; try done.
      destruct (Hd _ Hp Hn Hf) as (k' & rem' & -> & Hq). injection Hq as -> ->. do 4 right.
      destruct (Hrep k') as [l Hl]. exists k', rem', (timeline w k'), l. split; [done|]. split; [done|]. split; [done|]. by eapply rep_step.
    + destruct Hs as [?|[?|[Hp|[(rem & Hp & Hn & Hf)|(k' & rem & v' & l & Hp & Hn & Hf & _)]]]]; try done.
      * destruct (Hd _ Hp Hn Hf) as (k' & rem' & -> & ?). done.
      * injection Hp as -> -> ->. destruct Hth as [->| ->]; [|auto]. do 3 right. left. exists rem. split; [done|].
        split; [by apply NoDup_cons in Hn as [_ ?]|]. intros x Hx. apply Hf. by right.
    + destruct Hs as [?|[?|[Hp|[(rem & Hp & Hn & Hf)|(k' & rem & v' & l & Hp & Hn & Hf & _)]]]]; try done.
      destruct (Hd _ Hp Hn Hf) as (k' & rem' & -> & ?). done.
  - assert (Running p = settle (read u a b) → p = Get u (λ infos, let ids := cut (infos.*1) a b in ReadPosts ids (Ret (Ids ids)))) as Hp.
    { unfold read. destruct (_ || _); [done|]. by intros [= ->]. }
    destruct Ha as [u' m q fs ord Hnd Hset|e p th ? [->| ->]|f k g|f k v q th Hth|f ids q]; simpl; eauto.
    + destruct Hs as [?|[[? ?]|[H%Hp|(ids & ?)]]]; done.
    + destruct Hs as [?|[[? ?]|[H%Hp|(ids & ?)]]]; try done. injection H as -> ->. simpl. eauto.
    + destruct Hs as [?|[[? ?]|[H%Hp|(ids & ?)]]]; done.
    + destruct Hs as [?|[[? ?]|[H%Hp|(ids' & [= -> ->])]]]; try done. simpl. eauto.
Qed.
Lemma shape_start es w o : shape es w (length (w_calls w)) o (settle (program o)).
Proof. destruct o; simpl; auto. Qed.

Lemma timeline_put c l x k (v : list post) : timeline (World (<[k := v]> c) l) x = if decide (x = k) then v else timeline (World c l) x.
Proof. unfold timeline. simpl. destruct (decide (x = k)) as [->|]; [by rewrite lookup_insert|by rewrite lookup_insert_ne]. Qed.
(** The write of a timeline *)
Lemma put_shape es w t o k v q : inv es w → w_calls w !! t = Some (o, Running (Put k v q)) →
  ∃ pid uid ts ms rem v0 l, o = Write pid uid ts ms ∧ v = v0 ++ [(pid, ts)] ∧ q = deliver (pid, ts) rem ∧ k ∉ rem ∧ for_user es w t k ∧ rep es w k l v0.
Proof.
  intros (_ & Hsh & _) Ht. pose proof (Hsh _ _ _ Ht) as H. destruct o as [pid uid ts ms|u a b].
  - destruct H as [?|[?|[?|[(rem & H & _)|(k' & rem & v0 & l & [= -> -> ->] & [Hn _]%NoDup_cons & Hf & Hr)]]]]; try done; [by destruct rem|].
    exists pid, uid, ts, ms, rem, v0, l. split; [done|]. split; [done|]. split; [done|]. split; [done|]. split; [|done]. apply Hf. by left.
  - destruct H as [?|[[? ?]|[H|[? ?]]]]; try done. unfold read in H. by destruct (_ || _).
Qed.
Lemma rep_put es w e w' t o k v q th l v0 pid uid ts ms rem :
  moved w e w' → w_calls w' = <[t := (o, th)]> (w_calls w) → w_calls w !! t = Some (o, Running (Put k v q)) →
  o = Write pid uid ts ms → q = deliver (pid, ts) rem → k ∉ rem → for_user es w t k → th = settle q ∨ th = Done Failed →
  rep es w k l v0 → rep (es ++ [e]) w' k (l ++ [t]) (v0 ++ [(pid, ts)]).
Proof.
  intros Hm Ew Ht -> -> Hk Hf Hth Hr. pose proof (rep_step _ _ _ _ _ _ _ Hm Hr) as (Hn & Hp & Hl).
  assert (w_calls w' !! t = Some (Write pid uid ts ms, th)) as Ht' by (rewrite Ew; apply list_lookup_insert; by eapply lookup_lt_Some).
  split; [|split].
  - apply NoDup_app. split; [done|]. split; [|apply NoDup_singleton]. intros t' Hin ->%elem_of_list_singleton.
    destruct Hr as (_ & _ & H). destruct (H t Hin) as [_ Hc]. apply Hc. eexists _, _. split; [done|]. eexists. split; [done|]. constructor.
  - apply Forall2_app; [done|]. constructor; [|constructor]. by exists uid, ms, th.
  - intros t' [Hin|Hin%elem_of_list_singleton]%elem_of_app; [by apply Hl|]. subst t'. split; [by eapply for_user_step|].
    intros (o' & th' & E & Ha). rewrite Ht' in E. injection E as <- <-. destruct Hth as [->| ->].
    + apply settle_ahead, ahead_deliver in Ha. done.
    + by destruct Ha as (? & ? & _).
Qed.
Lemma inv_started : inv [] started.
Proof.
  split; [intros x; exists []; apply rep_nil|]. split; [by intros [] ? ? ?|]. by intros ? ? ? ?%elem_of_nil.
Qed.
Lemma inv_step es w e w' : inv es w → step e w = Some w' → inv (es ++ [e]) w'.
Proof.
  intros Hi Hs%step_moved. pose proof Hi as (Hrep & Hsh & Htold).
  assert (∀ t fs ord, Told t fs ord ∈ es → ∃ o th, w_calls w' !! t = Some (o, th) ∧ ∀ u m p, th ≠ Running (Followers u m p)) as Htold'.
  { intros t fs ord (o & th & Ht & Hne)%Htold. destruct Hs as [o'|e t' o' p th' c Ht' Ha _ _ _ _|k]; simpl.
    - exists o, th. split; [|done]. rewrite lookup_app_l; [done|by eapply lookup_lt_Some].
    - destruct (decide (t' = t)) as [->|]; [|exists o, th; split; [by rewrite list_lookup_insert_ne|done]].
      exists o', th'. split; [apply list_lookup_insert; by eapply lookup_lt_Some|]. rewrite Ht in Ht'. injection Ht' as <- ->. intros u m q ->.
      assert (ahead 0 p) as Ha0 by (eapply act_ahead; [done|]; eexists; split; [done|constructor]).
      pose proof (Hsh _ _ _ Ht) as H. inversion Ha as [? ? ? ? ? ? ? Hx|? ? ? ? [Hx|Hx]|? ? ? Hx|? ? ? ? ? [Hx|Hx]|? ? ? Hx]; subst; try done.
      + by destruct (Hne u0 m0 q0).
      + destruct o as [pid uid ts ms|u' a b].
        * destruct H as [?|[?|[?|[(rem & H & _)|(? & ? & ? & ? & ? & _)]]]]; try done. destruct rem as [|y rem]; [done|]. injection H as <- ->. done.
        * destruct H as [?|[[? ?]|[H|[? ?]]]]; try done. unfold read in H. destruct (_ || _); [done|]. by injection H as <- ->.
      + destruct (put_shape _ _ _ _ _ _ _ Hi Ht) as (? & ? & ? & ? & rem & ? & ? & _ & _ & -> & _). by destruct rem.
      + destruct o as [pid uid ts ms|u' a b].
        * destruct H as [?|[?|[?|[(rem & H & _)|(? & ? & ? & ? & ? & _)]]]]; try done. by destruct rem.
        * destruct H as [?|[[? ?]|[H|[? [= -> ->]]]]]; try done. unfold read in H. by destruct (_ || _).
    - eauto. }
  pose proof Hs as Hm. destruct Hs as [o|e t o p th c Ht Ha He1 He2 He3 He4|k].
  - split; [|split].
    + intros x. destruct (Hrep x) as [l Hl]. exists l. by apply (rep_step _ _ _ _ _ _ _ Hm) in Hl.
    + intros t o' th. simpl. intros [[-> [= -> ->]]|H]%snoc_cases; [|eapply shape_step; [done|by apply Hsh]]. destruct o; simpl; auto.
    + intros t fs ord [?|Hx%elem_of_list_singleton]%elem_of_app; [by eapply Htold'|done].
  - split; [|split].
    + intros x. destruct (Hrep x) as [l Hl]. inversion Ha as [? ? ? ? ? ? ?|? ? ? ? ?|? ? ?|f k v q th0 Hth|? ? ?]; subst; try (exists l; by apply (rep_step _ _ _ _ _ _ _ Hm) in Hl).
      rewrite timeline_put. case_decide as E; [|exists l; by apply (rep_step _ _ _ _ _ _ _ Hm) in Hl]. subst x.
      destruct (put_shape _ _ _ _ _ _ _ Hi Ht) as (pid & uid & ts & ms & rem & v0 & l0 & -> & -> & -> & Hk & Hf & Hr).
      exists (l0 ++ [t]). by eapply rep_put.
    + intros t' o' th'. simpl. intros [[-> [= -> ->]]|[Hne H]]%(update_cases _ _ _ _ _ _ _ Ht).
      * by eapply shape_act.
      * eapply shape_step; [done|by apply Hsh].
    + intros t' fs ord [?|Hx%elem_of_list_singleton]%elem_of_app; [by eapply Htold'|]. pose proof (He1 _ _ _ (eq_sym Hx)) as ->. simpl.
      exists o, th. split; [apply list_lookup_insert; by eapply lookup_lt_Some|]. subst e. inversion Ha as [? ? ? ? ? Hnd Hset|? ? ? Hne ?|? ? ?|f k v q th0 Hth|? ? ?]; subst.
      * intros u' m' p'. pose proof (Hsh _ _ _ Ht) as H. destruct o as [pid uid ts ms|u1 a b].
        -- destruct H as [?|[?|[[= -> -> ->]|[(rem & H & _)|(? & ? & ? & ? & ? & _)]]]]; try done; [|by destruct rem].
           by destruct ord.
        -- destruct H as [?|[[? ?]|[H|[? ?]]]]; try done. unfold read in H. by destruct (_ || _).
      * by destruct (Hne fs ord).
  - split; [|split].
    + intros x. destruct (decide (x = k)) as [->|].
      * exists []. unfold timeline. simpl. rewrite lookup_delete. apply rep_nil.
      * destruct (Hrep x) as [l Hl]. exists l. apply (rep_step _ _ _ _ _ _ _ Hm) in Hl. unfold timeline in *. simpl. by rewrite lookup_delete_ne.
    + intros t o th H. eapply shape_step; [done|by apply Hsh].
    + intros t fs ord [?|Hx%elem_of_list_singleton]%elem_of_app; [by eapply Htold'|done].
Qed.
Lemma inv_run P es w : run P started es w → inv es w.
Proof. intros Hr. remember started as w0 eqn:E. induction Hr as [|w0 es w1 e w2 Hr IH _ Hs]; subst; [apply inv_started|]. eapply inv_step; [by apply IH|done]. Qed.

(** ** Tidy histories *)
Definition inv2 (es : list event) (w : world) (L : Z → list nat) : Prop :=
  ∀ x, rep es w x (L x) (timeline w x) ∧
    (∀ t o v q, w_calls w !! t = Some (o, Running (Put x v q)) → ∃ p, posted w t p ∧ v = timeline w x ++ [p]) ∧
    (∀ t o th, for_user es w t x → w_calls w !! t = Some (o, th) → th ≠ Done Failed → th ≠ Gone → thread_ahead x th ∨ t ∈ L x).
Lemma for_user_back es w e w' t o th x : moved w e w' → w_calls w !! t = Some (o, th) → (∀ fs ord, e ≠ Told t fs ord) → for_user (es ++ [e]) w' t x → for_user es w t x.
Proof.
  intros Hm Ht Hne (pid & uid & ts & ms & th' & fs & ord & Ht' & [Hin|Hin%elem_of_list_singleton]%elem_of_app & Hx); [|by destruct (Hne fs ord)].
  destruct (moved_op _ _ _ _ _ _ Hm Ht) as [th2 E]. rewrite Ht' in E. injection E as <- _. exists pid, uid, ts, ms, th, fs, ord. done.
Qed.
Lemma deliver_no_put p ids k v q : settle (deliver p ids) ≠ Running (Put k v q).
Proof. by destruct ids. Qed.
Lemma program_no_put o k v q : settle (program o) ≠ Running (Put k v q).
Proof. destruct o; simpl; [done|]. unfold read. by destruct (_ || _). Qed.
Lemma ahead_settle x p ids : x ∈ ids → thread_ahead x (settle (deliver p ids)).
Proof. intros Hx. exists (deliver p ids). split; [by destruct ids; [apply elem_of_nil in Hx|]|by apply ahead_deliver]. Qed.
Lemma inv2_step es w e w' L : inv es w → inv2 es w L → tidy w e → step e w = Some w' →
  ∃ L', inv2 (es ++ [e]) w' L' ∧ ∀ x, timeline w x `prefix_of` timeline w' x.
Proof.
  intros Hi H2 Hx Hs%step_moved. pose proof Hi as (_ & Hsh & Htold). pose proof Hs as Hm.
  destruct Hs as [o|e t o p th c Ht Ha He1 He2 He3 He4|k]; [| |done].
  - exists L. split; [|done]. intros x. destruct (H2 x) as (Hr & Hp & Hf). split; [|split].
    + by apply (rep_step _ _ _ _ _ _ _ Hm) in Hr.
    + intros t o' v q. simpl. intros [[-> [= -> H]]|H]%snoc_cases; [symmetry in H; by apply program_no_put in H|].
      destruct (Hp _ _ _ _ H) as (p & ? & ?). exists p. split; [by eapply posted_step|done].
    + intros t o' th Hfu. simpl. intros [[-> [= -> ->]]|H]%snoc_cases Hn1 Hn2.
      * destruct Hfu as (? & ? & ? & ? & ? & fs & ord & _ & [Hin|Hin%elem_of_list_singleton]%elem_of_app & _); [|done].
        apply Htold in Hin as (o' & th & H & _). rewrite lookup_ge_None_2 in H by done. done.
      * eapply Hf; [|exact H|done|done]. by eapply for_user_back.
  - (* other calls *)
    assert (∀ t' o' v q x, t' ≠ t → w_calls w !! t' = Some (o', Running (Put x v q)) → (∀ f k v q, e = Step t f → p = Put k v q → x ≠ k)) as Hother.
    { intros t' o' v q x Hne H f k v' q' -> -> ->. apply Hne. simpl in Hx. apply (Hx k t'); by eexists _, _, _. }
    assert (∀ L', (∀ x, L x `prefix_of` L' x) → (∀ x, rep (es ++ [e]) (World c (<[t := (o, th)]> (w_calls w))) x (L' x) (timeline (World c (<[t := (o, th)]> (w_calls w))) x)) →
      (∀ x, timeline (World c (<[t := (o, th)]> (w_calls w))) x = timeline w x ∨ ∃ f v q, e = Step t f ∧ p = Put x v q) →
      (∀ x v q, th = Running (Put x v q) → ∃ p, posted (World c (<[t := (o, th)]> (w_calls w))) t p ∧ v = timeline (World c (<[t := (o, th)]> (w_calls w))) x ++ [p]) →
      (∀ x, for_user (es ++ [e]) (World c (<[t := (o, th)]> (w_calls w))) t x → th ≠ Done Failed → th ≠ Gone → thread_ahead x th ∨ t ∈ L' x) →
      inv2 (es ++ [e]) (World c (<[t := (o, th)]> (w_calls w))) L') as Hgo.
    { intros L' HL Hr Htl Hp1 Hf1 x. split; [done|]. destruct (H2 x) as (_ & Hp & Hf). split.
      - intros t' o' v q. simpl. intros [[-> [= -> <-]]|[Hne H]]%(update_cases _ _ _ _ _ _ _ Ht); [by eapply Hp1|].
        destruct (Htl x) as [->|(f & v' & q' & He & Hpp)]; [|by destruct (Hother _ _ _ _ _ Hne H _ _ _ _ He Hpp)].
        destruct (Hp _ _ _ _ H) as (q0 & ? & ?). exists q0. split; [by eapply posted_step|done].
      - intros t' o' th' Hfu. simpl. intros [[-> [= -> ->]]|[Hne H]]%(update_cases _ _ _ _ _ _ _ Ht) Hn1 Hn2; [by apply Hf1|].
        destruct (Hf t' o' th') as [?|Hin]; [|done..|by left|].
        + eapply for_user_back; [exact Hm|done| |done]. intros fs ord ->. by destruct (He1 _ _ _ eq_refl).
        + right. destruct (HL x) as [l ->]. apply elem_of_app. by left. }
    assert (∀ x, for_user (es ++ [e]) (World c (<[t := (o, th)]> (w_calls w))) t x → ∃ pid uid ts ms, o = Write pid uid ts ms) as Hwrite.
    { intros x (pid & uid & ts & ms & th' & _ & _ & E & _). simpl in E. apply (update_cases _ _ _ _ _ _ _ Ht) in E as [[_ [= <- _]]|[? _]]; [eauto 6|done]. }
    assert (c = w_cache w → ∀ x, rep (es ++ [e]) (World c (<[t := (o, th)]> (w_calls w))) x (L x) (timeline (World c (<[t := (o, th)]> (w_calls w))) x)) as Hsame.
    { intros Ec x. destruct (H2 x) as (Hr & _ & _). apply (rep_step _ _ _ _ _ _ _ Hm) in Hr. subst c. done. }
    pose proof (Hsh _ _ _ Ht) as Hshape.
    inversion Ha as [u m q fs ord Hnd Hset|e' p' th' Hne Hth|f k g|f k v q th' Hth|f ids q]; subst.
    + exists L. split; [|done]. apply Hgo; [done|by apply Hsame|by left|..].
      * intros x v q' E. destruct o as [pid uid ts ms|u' a b].
        -- destruct Hshape as [?|[?|[[= -> -> ->]|[(rem & H & _)|(? & ? & ? & ? & ? & _)]]]]; try done; [|by destruct rem]. by apply deliver_no_put in E.
        -- destruct Hshape as [?|[[? ?]|[H|[? ?]]]]; try done. unfold read in H. by destruct (_ || _).
      * intros x Hfu _ _. destruct (Hwrite x Hfu) as (pid & uid & ts & ms & ->).
        destruct Hshape as [?|[?|[[= -> -> ->]|[(rem & H & _)|(? & ? & ? & ? & ? & _)]]]]; try done; [|by destruct rem].
        left. apply ahead_settle. destruct Hfu as (? & ? & ? & ? & ? & fs' & ord' & E & [Hin|Hin%elem_of_list_singleton]%elem_of_app & Hmem).
        { exfalso. apply Htold in Hin as (o' & th' & E' & Hnf). rewrite Ht in E'. injection E' as <- <-. by eapply Hnf. }
        injection Hin as -> ->. simpl in E. apply (update_cases _ _ _ _ _ _ _ Ht) in E as [[_ [= <- <- <- <- _]]|[? _]]; [|done].
        apply followers_set_elem in Hmem. rewrite <-Hset in Hmem. by apply elem_of_list_to_set in Hmem.
    + exists L. split; [|done]. apply Hgo; [done|by apply Hsame|by left|..].
      * intros x v q' ->. by destruct Hth.
      * intros x _ ? ?. by destruct Hth.
    + exists L. split; [|done]. apply Hgo; [done|by apply Hsame|by left|..].
      * intros x v q' E. destruct o as [pid uid ts ms|u' a b].
        -- destruct Hshape as [?|[?|[?|[(rem & H & _)|(? & ? & ? & ? & ? & _)]]]]; try done. destruct rem as [|y rem]; [done|].
           injection H as -> ->. simpl in E. injection E as <- <- <-. exists (pid, ts). split; [|done].
           eexists _, _, _. simpl. apply list_lookup_insert. by eapply lookup_lt_Some.
        -- destruct Hshape as [?|[[? ?]|[H|[? ?]]]]; try done. unfold read in H. destruct (_ || _); [done|]. by injection H as -> ->.
      * intros x Hfu _ _. destruct (Hwrite x Hfu) as (pid & uid & ts & ms & ->).
        destruct Hshape as [?|[?|[?|[(rem & H & _)|(? & ? & ? & ? & ? & _)]]]]; try done. destruct rem as [|y rem]; [done|].
        injection H as -> ->. destruct (H2 x) as (_ & _ & Hf). destruct (Hf t _ _ (for_user_back _ _ _ _ _ _ _ _ Hm Ht ltac:(done) Hfu) Ht) as [(p' & [= <-] & Ha')|?]; [done|done| |by right].
        left. change (Get y _) with (deliver (pid, ts) (y :: rem)) in Ha'. apply ahead_deliver, elem_of_cons in Ha' as [->|Hin].
        -- eexists. split; [done|]. constructor.
        -- eexists. split; [done|]. apply ahead_put'. by apply ahead_deliver.
    + destruct (put_shape _ _ _ _ _ _ _ Hi Ht) as (pid & uid & ts & ms & rem & v0 & l0 & -> & -> & -> & Hk & Hf0 & _).
      destruct (H2 k) as (Hrk & Hpk & _). destruct (Hpk _ _ _ _ Ht) as (p0 & Hp0 & Ev). apply app_inj_tail in Ev as [-> <-].
      set (w' := World (<[k := timeline w k ++ [(pid, ts)]]> (w_cache w)) (<[t := (Write pid uid ts ms, th)]> (w_calls w))) in *.
      assert (∀ x, timeline w' x = if decide (x = k) then timeline w k ++ [(pid, ts)] else timeline w x) as Htl by (intros x; unfold w'; by rewrite timeline_put).
      exists (λ x, if decide (x = k) then L x ++ [t] else L x). split.
      * apply Hgo.
        -- intros x. case_decide; [by apply prefix_app_r|done].
        -- intros x. rewrite Htl. destruct (decide (x = k)) as [->|].
           ++ eapply rep_put; [exact Hm|done|exact Ht|done|done|done|done|done|done].
           ++ destruct (H2 x) as (Hr & _). by apply (rep_step _ _ _ _ _ _ _ Hm) in Hr.
        -- intros x. rewrite Htl. case_decide as Ex; [right; subst x; eauto|by left].
        -- intros x v q ->. destruct Hth as [Hth|Hth]; [|done]. symmetry in Hth. by apply deliver_no_put in Hth.
        -- intros x Hfu Hn1 _. destruct Hth as [->|?]; [|done].
           destruct (H2 x) as (_ & _ & Hf). destruct (Hf t _ _ (for_user_back _ _ _ _ _ _ _ _ Hm Ht ltac:(done) Hfu) Ht) as [(p' & [= <-] & Ha')|?]; [done|done|..].
           ++ inversion Ha' as [|? ?|? ? ? Hr'| |]; subst; [right; rewrite decide_True by done; set_solver|]. left. apply ahead_settle. by apply ahead_deliver in Hr'.
           ++ right. case_decide; [apply elem_of_app; by left|done].
      * intros x. fold w'. rewrite Htl. destruct (decide (x = k)) as [->|]; [by apply prefix_app_r|done].
    + exists L. split; [|done]. destruct o as [pid uid ts ms|u' a b].
      { exfalso. destruct Hshape as [?|[?|[?|[(rem & H & _)|(? & ? & ? & ? & ? & _)]]]]; try done. by destruct rem. }
      apply Hgo; [done|by apply Hsame|by left|..].
      * intros x v q' E. destruct Hshape as [?|[[? ?]|[H|(ids' & [= -> ->])]]]; try done. unfold read in H. by destruct (_ || _).
      * intros x Hfu _ _. destruct (Hwrite x Hfu) as (? & ? & ? & ? & ?). done.
Qed.
Lemma inv2_run es w : run tidy started es w → inv es w ∧ ∃ L, inv2 es w L.
Proof.
  intros Hr. remember started as w0 eqn:E. induction Hr as [|w0 es w1 e w2 Hr IH Hp Hs]; subst.
  - split; [apply inv_started|]. exists (λ _, []). intros x. split; [apply rep_nil|]. split; [by intros []|by intros [] ? ? _].
  - destruct IH as [Hi [L HL]]; [done|]. split; [by eapply inv_step|]. destruct (inv2_step _ _ _ _ _ Hi HL Hp Hs) as (L' & ? & _). eauto.
Qed.
Lemma run_app P w es w1 es' w2 : run P w es w1 → run P w1 es' w2 → run P w (es ++ es') w2.
Proof. intros H1 H2. induction H2 as [|w1 es' wa e wb _ IH ? ?]; [by rewrite app_nil_r|]. rewrite app_assoc. econstructor; [by apply IH|done|done]. Qed.
Lemma timelines_grow es w es' w' x : run tidy started es w → run tidy w es' w' → timeline w x `prefix_of` timeline w' x.
Proof.
  intros Hr Hr'. induction Hr' as [|w es' wa e wb Hr' IH Hp Hs]; [done|]. etrans; [by apply IH|].
  destruct (inv2_run _ _ (run_app _ _ _ _ _ _ Hr Hr')) as [Hi [L HL]]. destruct (inv2_step _ _ _ _ _ Hi HL Hp Hs) as (_ & _ & H). apply H.
Qed.

(** ** Reading *)
Lemma cut_page ids a b : 0 ≤ a < b → cut ids a b = if decide (a < Z.of_nat (length ids)) then page ids a b else ids.
Proof.
  intros H. unfold cut, page. destruct (Z.ltb_spec a (Z.of_nat (length ids))); [rewrite decide_True by done|by rewrite decide_False by lia].
  destruct (Z.ltb_spec (Z.of_nat (length ids)) b).
  - rewrite Nat2Z.id, firstn_all. rewrite (take_ge (drop _ _)); [done|]. rewrite drop_length. lia.
  - rewrite skipn_firstn_comm. f_equal. lia.
Qed.
Lemma read_linear P w u a b w1 es w2 : step (Start (Read u a b)) w = Some w1 → run P w1 es w2 →
  ∃ th, w_calls w2 !! length (w_calls w) = Some (Read u a b, th) ∧
    (th = settle (read u a b) ∨ (∃ es1 wm es2, es = es1 ++ es2 ∧ run P w1 es1 wm ∧ 0 ≤ a < b ∧
       let ids := cut ((timeline wm u).*1) a b in th = Running (ReadPosts ids (Ret (Ids ids))) ∨ th = Done (Ids ids)) ∨ th = Done Failed ∨ th = Gone).
Proof.
  intros Hs0 Hr. set (t := length (w_calls w)).
  assert (w_calls w1 !! t = Some (Read u a b, settle (read u a b))) as Ht.
  { simpl in Hs0. injection Hs0 as <-. simpl. unfold t. by rewrite lookup_app_r, Nat.sub_diag. }
  clear Hs0.
  induction Hr as [|w1 es wa e wb Hr IH Hp Hs]; [eauto|]. destruct (IH Ht) as (th & Hth & Hsh). clear IH.
  assert (Running (read u a b) = settle (read u a b) ∨ settle (read u a b) = Done (Ids [])) as Hcase.
  { unfold read. destruct (_ || _); simpl; auto. }
  assert (w_calls wb !! t = Some (Read u a b, th) → ∃ th, w_calls wb !! t = Some (Read u a b, th) ∧
    (th = settle (read u a b) ∨ (∃ es1 wm es2, es ++ [e] = es1 ++ es2 ∧ run P w1 es1 wm ∧ 0 ≤ a < b ∧
       let ids := cut ((timeline wm u).*1) a b in th = Running (ReadPosts ids (Ret (Ids ids))) ∨ th = Done (Ids ids)) ∨ th = Done Failed ∨ th = Gone)) as Hkeep.
  { intros H. exists th. split; [done|]. destruct Hsh as [?|[(es1 & wm & es2 & -> & ? & ? & ?)|?]]; auto. right; left.
    exists es1, wm, (es2 ++ [e]). split; [by rewrite app_assoc|]. done. }
  destruct (step_moved _ _ _ Hs) as [o|e t' o p th' c Ht' Ha _ _ _ _|k].
  - apply Hkeep. simpl. rewrite lookup_app_l; [done|by eapply lookup_lt_Some].
  - destruct (decide (t' = t)) as [->|]; [|apply Hkeep; simpl; by rewrite list_lookup_insert_ne].
    rewrite Hth in Ht'. injection Ht' as <- ->. exists th'. split; [simpl; apply list_lookup_insert; by eapply lookup_lt_Some|].
    destruct Hsh as [Hsh|[(es1 & wm & es2 & -> & Hr1 & Hab & [[= ->]|?])|[?|?]]]; try done.
    + unfold read in Hsh. destruct ((b <=? a) || (a <? 0)) eqn:Eb; [done|].
      apply orb_false_iff in Eb as [?%Z.leb_gt ?%Z.ltb_ge]. injection Hsh as ->.
      inversion Ha as [? ? ? ? ? ? ?|? ? ? ? Hd|? ? ?|? ? ? ? ? ?|? ? ?]; subst.
      * destruct Hd; auto.
      * right; left. exists es, wa, [Step t f]. split; [done|]. split; [done|]. split; [lia|]. by left.
    + inversion Ha as [? ? ? ? ? ? ?|? ? ? ? Hd|? ? ?|? ? ? ? ? ?|? ? ?]; subst.
      * destruct Hd; auto.
      * right; left. exists es1, wm, (es2 ++ [Step t f]). split; [by rewrite app_assoc|]. split; [done|]. split; [done|]. by right.
  - by apply Hkeep.
Qed.

(** ** Writing *)
Lemma write_fine es w e w' t pid uid ts ms th : inv es w → w_calls w !! t = Some (Write pid uid ts ms, th) → th ≠ Done Failed → th ≠ Gone → works_for t e →
  step e w = Some w' → ∃ th', w_calls w' !! t = Some (Write pid uid ts ms, th') ∧ th' ≠ Done Failed ∧ th' ≠ Gone.
Proof.
  intros (_ & Hsh & _) Ht Hn1 Hn2 Hw Hs. pose proof (Hsh _ _ _ Ht) as H. assert (t < length (w_calls w))%nat as Hlt by by eapply lookup_lt_Some.
  assert (∀ ids, settle (deliver (pid, ts) ids) ≠ Done Failed ∧ settle (deliver (pid, ts) ids) ≠ Gone) as Hd by by intros [].
  destruct e as [o|t' fs ord|t' f|t'|k]; simpl in Hs.
  - injection Hs as <-. simpl. rewrite lookup_app_l by done. eauto.
  - destruct (decide (t' = t)) as [->|].
    + rewrite Ht in Hs. destruct th as [[|u m p| | |]| |]; try done. case_bool_decide; [|done]. injection Hs as <-. simpl. rewrite list_lookup_insert by done.
      eexists. split; [done|]. destruct H as [?|[?|[[= -> -> ->]|[(rem & H & _)|(? & ? & ? & ? & ? & _)]]]]; try done. by destruct rem.
    + destruct (w_calls w !! t') as [[o [[|u m p| | |]| |]]|]; try done. case_bool_decide; [|done]. injection Hs as <-. simpl. rewrite list_lookup_insert_ne by done. eauto.
  - destruct (decide (t' = t)) as [->|].
    + rewrite (Hw eq_refl) in Hs. rewrite Ht in Hs. destruct th as [p| |]; try done.
      destruct p as [r|u m p|k g|k v p|ids p]; try done; injection Hs as <-; simpl; rewrite list_lookup_insert by done; (eexists; split; [done|]).
      * destruct H as [?|[?|[?|[(rem & H & _)|(? & ? & ? & ? & ? & _)]]]]; try done. destruct rem as [|y rem]; [done|]. by injection H as -> ->.
      * destruct H as [?|[?|[?|[(rem & H & _)|(? & ? & ? & ? & [= -> -> ->] & _)]]]]; try done. by destruct rem.
      * destruct H as [?|[?|[?|[(rem & H & _)|(? & ? & ? & ? & ? & _)]]]]; try done. by destruct rem.
    + destruct (w_calls w !! t') as [[o [p| |]]|]; try done. exists th. split; [|done].
      destruct p as [r|u m p|k g|k v p|ids p]; try done; [destruct (fine f); [done|]| | |]; injection Hs as <-; simpl; by rewrite list_lookup_insert_ne.
  - simpl in Hw. destruct (w_calls w !! t') as [[o [p| |]]|]; try done. injection Hs as <-. simpl. rewrite list_lookup_insert_ne by done. eauto.
  - injection Hs as <-. eauto.
Qed.
