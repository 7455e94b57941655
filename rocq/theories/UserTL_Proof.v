(** * Proofs about the user timelines *)
From Verif Require Export UserTL_Spec JsonNum_Proof.
From stdpp Require Export list.
Set Default Proof Using "Type".
Open Scope Z_scope.

Definition ops (w : world) : list op := (w_calls w).*1.
Lemma called_ops w o : called w o ↔ o ∈ ops w.
Proof.
  unfold called, ops. rewrite elem_of_list_fmap. split.
  - intros (t & th & H). exists (o, th). split; [done|]. by apply elem_of_list_lookup_2 in H.
  - intros ([o' th] & -> & H). apply elem_of_list_lookup in H as [t H]. by exists t, th.
Qed.

(** ** Where the posts come from *)
Definition from (os : list op) (u x : Z) : Prop := ∃ pid u' ts, (u' = u ∨ u' = json_num u) ∧ Write pid u' ts ∈ os ∧ (x = pid ∨ x = json_num pid).
Definition infos_ok (os : list op) (u : Z) (l : list post) : Prop := ∀ q, q ∈ l → Write q.1 u q.2 ∈ os.
Inductive stage (os : list op) : op → prog → Prop :=
  | W1 p u s : stage os (Write p u s) (write p u s)
  | W2 p u s : stage os (Write p u s) (DIns u (p, s) (to_cache p u s))
  | W3 p u s : stage os (Write p u s) (DPush u (json_num p, json_num s) (to_cache p u s))
  | W4 p u s : stage os (Write p u s) (to_cache p u s)
  | W5 p u s l : infos_ok os u l → stage os (Write p u s) (CPut u (Infos (l ++ [(p, s)])) (Ret Ok))
  | R1 u a b : (b <=? a) || (a <? 0) = false → stage os (Read u a b) (look u a b)
  | R2 u a b ids : (b <=? a) || (a <? 0) = false → (∀ x, x ∈ ids → from os u x) → a + Z.of_nat (length ids) < b → stage os (Read u a b) (DFirst (json_num u) (json_num b) (with_stored u ids))
  | R3 u a b ids : (∀ x, x ∈ ids → from os u x) → stage os (Read u a b) (CPut u (IdList ids) (ReadPosts ids (Ret (Ids ids))))
  | R4 u a b ids : (∀ x, x ∈ ids → from os u x) → stage os (Read u a b) (ReadPosts ids (Ret (Ids ids))).
Definition reply_ok (os : list op) (o : op) (r : reply) : Prop :=
  match r with Failed => True | Ok => is_write o | Ids l => match o with Read u _ _ => ∀ x, x ∈ l → from os u x | _ => False end end.
Definition call_ok (os : list op) (o : op) (th : thread) : Prop := match th with Gone => True | Done r => reply_ok os o r | Running p => stage os o p end.
Record inv (w : world) : Prop := {
  inv_cache : ∀ u l, w_cache w !! u = Some (Infos l) → infos_ok (ops w) u l;
  inv_db : ∀ d q, d ∈ w_db w → q ∈ d.2 → ∃ pid ts, Write pid d.1 ts ∈ ops w ∧ (q.1 = pid ∨ q.1 = json_num pid);
  inv_calls : ∀ t o th, w_calls w !! t = Some (o, th) → o ∈ ops w ∧ call_ok (ops w) o th }.

Lemma from_mono os os' u x : (∀ o, o ∈ os → o ∈ os') → from os u x → from os' u x.
Proof. intros H (p & u' & s & ? & ? & ?). exists p, u', s. auto. Qed.
Lemma call_ok_mono os os' o th : (∀ o, o ∈ os → o ∈ os') → call_ok os o th → call_ok os' o th.
Proof.
  intros H. destruct th as [p|r|]; simpl; [|destruct r; simpl; [done| |done]; destruct o; [done|]; intros Hl x Hx; eapply from_mono; eauto|done].
  destruct 1; constructor; auto; unfold infos_ok in *; eauto using from_mono.
Qed.
Lemma stage_settle os o p : stage os o p ∨ (∃ r, p = Ret r ∧ reply_ok os o r) → call_ok os o (settle p).
Proof. intros [H|(r & -> & H)]; [|done]. destruct H; simpl; unfold look, to_cache, write; try constructor; auto. Qed.
Lemma finish_ok os u a b new ids : (∀ x, x ∈ new ++ ids → from os u x) → stage os (Read u a b) (finish u new ids).
Proof. intros H. unfold finish. destruct new; [by apply R4|by apply R3]. Qed.
Lemma cached_some c u l : cached c u = Some l → (c !! u = None ∧ l = []) ∨ c !! u = Some (Infos l).
Proof. unfold cached. repeat case_match; intros ?; simplify_eq; auto. Qed.

Lemma act_ok os o p f db c db' c' p' : stage os o p → o ∈ os → act p f db c = (db', c', p') →
  (∀ u l, c !! u = Some (Infos l) → infos_ok os u l) →
  (∀ d q, d ∈ db → q ∈ d.2 → ∃ pid ts, Write pid d.1 ts ∈ os ∧ (q.1 = pid ∨ q.1 = json_num pid)) →
  (∀ u l, c' !! u = Some (Infos l) → infos_ok os u l) ∧
  (∀ d q, d ∈ db' → q ∈ d.2 → ∃ pid ts, Write pid d.1 ts ∈ os ∧ (q.1 = pid ∨ q.1 = json_num pid)) ∧
  (stage os o p' ∨ ∃ r, p' = Ret r ∧ reply_ok os o r).
Proof.
  intros Hst Ho Ha Hc Hd. destruct Hst as [p u s|p u s|p u s|p u s|p u s l Hl|u a b Hab|u a b ids Hab Hids Hlt|u a b ids Hids|u a b ids Hids];
    simpl in Ha; injection Ha as <- <- <-.
  - split; [done|]. split; [done|]. destruct f; [|right; by exists Failed|left; constructor]. left. case_bool_decide; constructor.
  - split; [done|]. split.
    { destruct (done_by f); [|done]. intros d q Hin Hq. apply elem_of_app in Hin as [Hin|Hin]; [by apply (Hd d)|].
      apply elem_of_list_singleton in Hin as ->. simpl in *. apply elem_of_list_singleton in Hq as ->. exists p, s. auto. }
    destruct (fine f); [left; constructor|right; by exists Failed].
  - split; [done|]. split.
    { destruct (done_by f); [|done]. intros d q Hin Hq. unfold push in Hin. apply elem_of_list_fmap in Hin as (d0 & -> & Hin).
      destruct (decide (d0.1 = u)) as [E|E]; [|by apply (Hd d0)]. simpl in *. apply elem_of_cons in Hq as [->|Hq]; [|by apply (Hd d0)].
      rewrite E. exists p, s. simpl. auto. }
    destruct (fine f); [left; constructor|right; by exists Failed].
  - split; [done|]. split; [done|]. destruct (fine f); [|right; by exists Failed]. destruct (cached c u) as [l|] eqn:E; [|right; by exists Failed].
    left. apply W5. apply cached_some in E as [[_ ->]|E]; [intros q Hq; by apply elem_of_nil in Hq|by apply Hc].
  - split.
    { destruct (done_by f); [|done]. intros u' l' Hl'. destruct (decide (u' = u)) as [->|Hne]; [|rewrite lookup_insert_ne in Hl' by done; by apply Hc].
      rewrite lookup_insert in Hl'. simplify_eq. intros q Hq. apply elem_of_app in Hq as [Hq|Hq]; [by apply Hl|]. by apply elem_of_list_singleton in Hq as ->. }
    split; [done|]. right. destruct (fine f); [by exists Ok|by exists Failed].
  - split; [done|]. split; [done|]. destruct (fine f); [|right; by exists Failed]. destruct (cached c u) as [l|] eqn:E; [|right; by exists Failed].
    left. assert (∀ x, x ∈ l.*1 → from os u x) as Hl.
    { apply cached_some in E as [[_ ->]|E]; [intros x Hx; by apply elem_of_nil in Hx|]. intros x Hx. apply elem_of_list_fmap in Hx as (q & -> & Hq).
      exists q.1, u, q.2. split; [by left|]. split; [by apply (Hc _ _ E)|by left]. }
    destruct (a + Z.of_nat (length l.*1) <? b) eqn:El; [apply R2; [done|done|lia]|by apply R4].
  - split; [done|]. split; [done|]. destruct (fine f); [|right; by exists Failed].
    destruct (head (docs (json_num u) db)) as [d|] eqn:E; simpl; [|right; by exists Failed].
    left. apply finish_ok. intros x Hx. apply elem_of_app in Hx as [Hx|Hx]; [|by apply Hids].
    apply elem_of_list_filter in Hx as [_ Hx]. apply elem_of_list_fmap in Hx as (q & -> & Hq).
    assert (d ∈ docs (json_num u) db) as Hdd by (apply head_Some_elem_of; done).
    apply elem_of_list_filter in Hdd as [E1 Hin]. destruct (Hd d q Hin) as (pid & ts & H1 & H2).
    { eapply elem_of_submseteq; [exact Hq|]. apply sublist_submseteq, sublist_take. }
    exists pid, d.1, ts. auto.
  - split.
    { destruct (done_by f); [|done]. intros u' l' Hl'. destruct (decide (u' = u)) as [->|Hne]; [|rewrite lookup_insert_ne in Hl' by done; by apply Hc].
      by rewrite lookup_insert in Hl'. }
    split; [done|]. destruct (fine f); [left; by apply R4|right; by exists Failed].
  - split; [done|]. split; [done|]. right. destruct (fine f); [by exists (Ids ids)|by exists Failed].
Qed.

Lemma ops_insert w t o th th' : w_calls w !! t = Some (o, th) → (<[t := (o, th')]> (w_calls w)).*1 = ops w.
Proof. intros H. unfold ops. rewrite list_fmap_insert. apply list_insert_id. by rewrite list_lookup_fmap, H. Qed.
Lemma inv_step e w w' : step e w = Some w' → inv w → inv w'.
Proof.
  intros Hs [Hc Hd Ht]. destruct e as [o|t f|t|u]; simpl in Hs.
  - simplify_eq. assert (∀ x, x ∈ ops w → x ∈ ops (World (w_db w) (w_cache w) (w_calls w ++ [(o, settle (program o))]))) as Hm.
    { intros x Hx. unfold ops in *. simpl. rewrite fmap_app. apply elem_of_app. by left. }
    split; simpl.
    + intros u l Hl q Hq. apply Hm. by apply (Hc u l Hl).
    + intros d q H1 H2. destruct (Hd d q H1 H2) as (p & s & H3 & H4). exists p, s. auto.
    + intros t o' th Hl. apply lookup_app_Some in Hl as [Hl|[Hlt Hl]].
      * destruct (Ht _ _ _ Hl) as [H1 H2]. split; [auto|]. eapply call_ok_mono; eauto.
      * apply list_lookup_singleton_Some in Hl as [_ Hl]. simplify_eq. split; [unfold ops; simpl; rewrite fmap_app; set_solver|].
        apply stage_settle. destruct o' as [p u s|u a b]; simpl; [left; constructor|]. unfold read.
        destruct ((b <=? a) || (a <? 0)) eqn:E; [right; exists (Ids []); split; [done|]; intros x Hx; by apply elem_of_nil in Hx|left; by apply R1].
  - destruct (w_calls w !! t) as [[o [p|r|]]|] eqn:E; try done. destruct (Ht _ _ _ E) as [Ho Hst].
    destruct (act p f (w_db w) (w_cache w)) as [[db c] p'] eqn:Ea. simplify_eq.
    destruct (act_ok _ _ _ _ _ _ _ _ _ Hst Ho Ea Hc Hd) as (H1 & H2 & H3).
    assert (ops (World db c (<[t:=(o, settle p')]> (w_calls w))) = ops w) as Eo by (unfold ops at 1; simpl; by eapply ops_insert).
    split; rewrite Eo; simpl; [done|done|]. intros t' o' th Hl. destruct (decide (t' = t)) as [->|Hne]; [|rewrite list_lookup_insert_ne in Hl by done; eauto].
    rewrite list_lookup_insert in Hl by (by eapply lookup_lt_Some). simplify_eq. split; [done|]. by apply stage_settle.
  - destruct (w_calls w !! t) as [[o [p|r|]]|] eqn:E; try done. simplify_eq. destruct (Ht _ _ _ E) as [Ho Hst].
    assert (ops (World (w_db w) (w_cache w) (<[t:=(o, Gone)]> (w_calls w))) = ops w) as Eo by (unfold ops at 1; simpl; by eapply ops_insert).
    split; rewrite Eo; simpl; [done|done|]. intros t' o' th Hl. destruct (decide (t' = t)) as [->|Hne]; [|rewrite list_lookup_insert_ne in Hl by done; eauto].
    rewrite list_lookup_insert in Hl by (by eapply lookup_lt_Some). simplify_eq. done.
  - simplify_eq. split; simpl; [|done|done]. intros u' l Hl. apply lookup_delete_Some in Hl as [_ Hl]. by apply Hc.
Qed.
Lemma inv_started : inv started.
Proof. split; simpl; [intros ? ? H; by rewrite lookup_empty in H|intros ? ? H; by apply elem_of_nil in H|done]. Qed.
Lemma inv_run P w es w' : run P w es w' → inv w → inv w'.
Proof. induction 1; eauto using inv_step. Qed.
Lemma inv_history es w : history es w → inv w.
Proof. intros H. eapply inv_run; [exact H|apply inv_started]. Qed.

(** ** Broken entries *)
(** Call [t] is of [u] or of other users; those of [u] from number [n] on fail. *)
Definition doomed (w : world) (u : Z) (n : nat) : Prop :=
  broken w u ∧ ∀ t o th, w_calls w !! t = Some (o, th) → user o = u →
  if decide (t < n)%nat then ∀ p, th ≠ Running p
  else match o, th with
    | _, Gone | _, Done Failed => True
    | Write p u s, Running q => q = write p u s ∨ q = DIns u (p, s) (to_cache p u s) ∨ q = DPush u (json_num p, json_num s) (to_cache p u s) ∨ q = to_cache p u s
    | Read u a b, Running q => q = look u a b ∧ (b <=? a) || (a <? 0) = false
    | Read u a b, Done r => (b <=? a) || (a <? 0) = true ∧ r = Ids []
    | _, _ => False
    end.
Lemma stage_put os o p f db c u' : stage os o p → u' ≠ user o → (act p f db c).1.2 !! u' = c !! u'.
Proof. destruct 1; simpl; intros Hu; try done; destruct (done_by f); try done; by rewrite lookup_insert_ne. Qed.
Lemma doomed_step w e w' u n : inv w → (n ≤ length (w_calls w))%nat → e ≠ Evict u → step e w = Some w' → doomed w u n → doomed w' u n ∧ (n ≤ length (w_calls w'))%nat.
Proof.
  intros Hi Hn He Hs [[l Hb] Hd]. destruct e as [o|t f|t|u']; simpl in Hs.
  - simplify_eq. split; [|simpl; rewrite app_length; lia]. split; [by exists l|]. simpl. intros t o' th Hl Hu. apply lookup_app_Some in Hl as [Hl|[Hlt Hl]]; [by apply (Hd t)|].
    apply list_lookup_singleton_Some in Hl as [Ht Hl]. simplify_eq. destruct (decide (t < n)%nat); [lia|]. destruct o' as [p u s|u a b]; simpl; [by left|].
    unfold read. destruct ((b <=? a) || (a <? 0)) eqn:E; simpl; done.
  - destruct (w_calls w !! t) as [[o [p|r|]]|] eqn:E; try done. pose proof (inv_calls _ Hi _ _ _ E) as [_ Hst]. simpl in Hst.
    destruct (act p f (w_db w) (w_cache w)) as [[db c] p'] eqn:Ea. simplify_eq. split; [|simpl; by rewrite insert_length].
    destruct (decide (user o = u)) as [Hu|Hu].
    + pose proof (Hd _ _ _ E Hu) as Hx. destruct (decide (t < n)%nat) as [|Hge]; [by destruct (Hx p)|].
      assert (cached (w_cache w) u = None) as Hcn by (unfold cached; by rewrite Hb).
      assert (c = w_cache w ∧ match o, settle p' with
        | _, Gone | _, Done Failed => True
        | Write p u s, Running q => q = write p u s ∨ q = DIns u (p, s) (to_cache p u s) ∨ q = DPush u (json_num p, json_num s) (to_cache p u s) ∨ q = to_cache p u s
        | Read u a b, Running q => q = look u a b ∧ (b <=? a) || (a <? 0) = false
        | Read u a b, Done r => (b <=? a) || (a <? 0) = true ∧ r = Ids []
        | _, _ => False end) as [-> Hnew].
      { destruct o as [p0 u0 s|u0 a b]; simpl in Hu; subst u0.
        - destruct Hx as [-> | [-> | [-> | ->]]]; simpl in Ea; injection Ea as <- <- <-; (split; [done|]).
          + destruct f; simpl; [case_bool_decide; simpl; auto|done|auto].
          + destruct (fine f); simpl; auto.
          + destruct (fine f); simpl; auto.
          + rewrite Hcn. destruct (fine f); simpl; auto.
        - destruct Hx as [-> Hx]. simpl in Ea. injection Ea as <- <- <-. split; [done|]. rewrite Hcn. destruct (fine f); simpl; auto. }
      split; [by exists l|]. simpl. intros t' o' th Hl Hu'. destruct (decide (t' = t)) as [->|Hne]; [|rewrite list_lookup_insert_ne in Hl by done; by apply Hd].
      rewrite list_lookup_insert in Hl by (by eapply lookup_lt_Some). simplify_eq. destruct (decide (t < n)%nat); [lia|]. done.
    + split.
      * exists l. pose proof (stage_put _ _ _ f (w_db w) (w_cache w) u Hst ltac:(done)) as Hput. rewrite Ea in Hput. simpl in *. by rewrite Hput.
      * simpl. intros t' o' th Hl Hu'. destruct (decide (t' = t)) as [->|Hne]; [|rewrite list_lookup_insert_ne in Hl by done; by apply Hd].
        rewrite list_lookup_insert in Hl by (by eapply lookup_lt_Some). by simplify_eq.
  - destruct (w_calls w !! t) as [[o [p|r|]]|] eqn:E; try done. simplify_eq. split; [|simpl; by rewrite insert_length]. split; [by exists l|].
    simpl. intros t' o' th Hl Hu'. destruct (decide (t' = t)) as [->|Hne]; [|rewrite list_lookup_insert_ne in Hl by done; by apply Hd].
    rewrite list_lookup_insert in Hl by (by eapply lookup_lt_Some). simplify_eq. destruct (decide (t < n)%nat); [done|]. by destruct o'.
  - simplify_eq. split; [|done]. split; [|done]. exists l. simpl. rewrite lookup_delete_ne by congruence. done.
Qed.
Lemma doomed_run w es w' u n : run (λ _ e, e ≠ Evict u) w es w' → inv w → doomed w u n → (n ≤ length (w_calls w))%nat →
  inv w' ∧ doomed w' u n ∧ (n ≤ length (w_calls w'))%nat.
Proof.
  intros Hr Hi Hd Hn. induction Hr as [w|w es1 w1 e w2 Hr IH HP Hs]; [done|].
  destruct (IH Hi Hd Hn) as (Hi1 & Hd1 & Hn1). split; [by eapply inv_step|]. by eapply doomed_step.
Qed.

(** ** What is stored *)
Lemma docs_app u db d : docs u (db ++ [d]) = docs u db ++ (if decide (d.1 = u) then [d] else []).
Proof. unfold docs. rewrite filter_app. done. Qed.
Lemma docs_push_ne u u' x db : u' ≠ u → docs u' (push u x db) = docs u' db.
Proof.
  intros Hne. unfold docs, push. induction db as [|d db IH]; [done|]. rewrite fmap_cons, !filter_cons. rewrite IH. destruct (decide (d.1 = u)) as [E|E]; simpl.
  - destruct (decide (d.1 = u')); [congruence|done].
  - done.
Qed.
Lemma docs_push u x db : docs u (push u x db) = (λ d, (d.1, x :: d.2)) <$> docs u db.
Proof.
  unfold docs, push. induction db as [|d db IH]; [done|]. rewrite fmap_cons, !filter_cons. rewrite IH. destruct (decide (d.1 = u)) as [E|E]; simpl.
  - destruct (decide (d.1 = u)); done.
  - destruct (decide (d.1 = u)); done.
Qed.
Lemma act_docs os o p f db c u : stage os o p → u ≠ user o → docs u (act p f db c).1.1 = docs u db.
Proof.
  destruct 1; simpl; intros Hu; try done; destruct (done_by f); try done; [|by apply docs_push_ne].
  rewrite docs_app. simpl. rewrite decide_False by congruence. by rewrite app_nil_r.
Qed.
Lemma act_read os u a b p f db c : stage os (Read u a b) p → (act p f db c).1.1 = db.
Proof. inversion 1; done. Qed.

Definition ws (u : Z) (l : list (op * thread)) : list (post * thread) :=
  omap (λ c : op * thread, match c with (Write p u' s, th) => if decide (u' = u) then Some ((p, s), th) else None | _ => None end) l.
Definition may_in (th : thread) : Prop := match th with Running (CGet _ _) | Running (CPut _ _ _) => True | Running _ => False | _ => True end.
Definition may_out (th : thread) : Prop := match th with Running (DFind _ _) | Running (DIns _ _ _) | Running (DPush _ _ _) => True | Running _ => False | Done Failed | Gone => True | Done _ => False end.
Inductive matches : list (post * thread) → list post → Prop :=
  | M_nil : matches [] []
  | M_in l m x th : matches l m → may_in th → matches (l ++ [(x, th)]) (m ++ [x])
  | M_out l m x th : matches l m → may_out th → matches (l ++ [(x, th)]) m.
Lemma matches_last l x th m : matches (l ++ [(x, th)]) m → ¬ may_in th → matches l m.
Proof.
  intros H Hn. inversion H as [E|l' m' x' th' H1 H2 E|l' m' x' th' H1 H2 E].
  - by destruct l.
  - apply app_inj_tail in E as [-> E]. simplify_eq. done.
  - by apply app_inj_tail in E as [-> E].
Qed.
Lemma matches_status A x th th' B m : matches (A ++ (x, th) :: B) m → (may_in th → may_in th') → (may_out th → may_out th') → matches (A ++ (x, th') :: B) m.
Proof.
  intros H Hin Hout. remember (A ++ (x, th) :: B) as L eqn:E. revert B E. induction H as [|l m y th0 H IH Hy|l m y th0 H IH Hy]; intros B E.
  - by destruct A.
  - destruct B as [|b B _] using rev_ind.
    + apply app_inj_tail in E as [-> E]. simplify_eq. apply M_in; auto.
    + rewrite app_comm_cons, app_assoc in E. apply app_inj_tail in E as [-> E]. subst b. rewrite app_comm_cons, app_assoc. apply M_in; auto.
  - destruct B as [|b B _] using rev_ind.
    + apply app_inj_tail in E as [-> E]. simplify_eq. apply M_out; auto.
    + rewrite app_comm_cons, app_assoc in E. apply app_inj_tail in E as [-> E]. subst b. rewrite app_comm_cons, app_assoc. apply M_out; auto.
Qed.
Lemma matches_tried l m : matches l m → m `sublist_of` l.*1.
Proof.
  induction 1 as [|l m x th H IH Hx|l m x th H IH Hx]; simpl; [done| |]; rewrite fmap_app; simpl.
  - by apply sublist_app.
  - rewrite <-(app_nil_r m). apply sublist_app; [done|]. apply sublist_nil_l.
Qed.
Definition ok_of (x : post * thread) : option post := match x.2 with Done Ok => Some x.1 | _ => None end.
Lemma matches_acknowledged l m : matches l m → omap ok_of l `sublist_of` m.
Proof.
  induction 1 as [|l m x th H IH Hx|l m x th H IH Hx]; simpl; [done| |]; rewrite omap_app; simpl.
  - apply sublist_app; [done|]. unfold ok_of. simpl. destruct th as [|[]|]; simpl; repeat constructor.
  - unfold ok_of. simpl. destruct th as [|[]|]; simpl; try done; by rewrite app_nil_r.
Qed.
Lemma ws_tried u w : (ws u (w_calls w)).*1 = tried u w.
Proof.
  unfold ws, tried. induction (w_calls w) as [|[[p u' s|u' a b] th] l IH]; simpl; [done| |exact IH]. destruct (decide (u' = u)); simpl; [f_equal; exact IH|exact IH].
Qed.
Lemma ws_acknowledged u w : omap ok_of (ws u (w_calls w)) = acknowledged u w.
Proof.
  unfold ws, acknowledged. induction (w_calls w) as [|[[p u' s|u' a b] th] l IH]; simpl; [done| |done].
  destruct th as [|[]|]; destruct (decide (u' = u)); simpl; try exact IH. f_equal. exact IH.
Qed.
Lemma ws_split u l t o th : l !! t = Some (o, th) → ∀ th', ws u (<[t := (o, th')]> l) = ws u (take t l) ++ ws u [(o, th')] ++ ws u (drop (S t) l).
Proof.
  intros H th'. rewrite insert_take_drop by (by eapply lookup_lt_Some). unfold ws. rewrite !omap_app. f_equal. rewrite <-(omap_app _ [_]). done.
Qed.
Lemma ws_here u l t o th : l !! t = Some (o, th) → ws u l = ws u (take t l) ++ ws u [(o, th)] ++ ws u (drop (S t) l).
Proof. intros H. rewrite <-(ws_split u l t o th H th). by rewrite list_insert_id. Qed.

Record inv2 (w : world) : Prop := {
  i2_exact : ∀ o, o ∈ ops w → exact_op o;
  i2_last : ∀ t o p, w_calls w !! t = Some (o, Running p) → is_write o → ∀ t' o' th', (t < t')%nat → w_calls w !! t' = Some (o', th') → is_write o' → user o' ≠ user o;
  i2_ins : ∀ t o u x k, w_calls w !! t = Some (o, Running (DIns u x k)) → docs u (w_db w) = [];
  i2_push : ∀ t o u x k, w_calls w !! t = Some (o, Running (DPush u x k)) → docs u (w_db w) ≠ [];
  i2_match : ∀ u, ∃ m, docs u (w_db w) = (if decide (m = []) then [] else [(u, reverse m)]) ∧ matches (ws u (w_calls w)) m }.
Lemma ws_later u l t : (∀ t' o' th', (t < t')%nat → l !! t' = Some (o', th') → is_write o' → user o' ≠ u) → ws u (drop (S t) l) = [].
Proof.
  intros H. assert (∀ c, c ∈ drop (S t) l → is_write c.1 → user c.1 ≠ u) as Hd.
  { intros [o th] Hin. apply elem_of_list_lookup in Hin as [i Hi]. rewrite lookup_drop in Hi. eapply H; [|done]. lia. }
  clear H. induction (drop (S t) l) as [|[[p u' s|u' a b] th] l' IH]; simpl; [done| |].
  - rewrite decide_False; [apply IH; intros; apply Hd; [by right|done]|]. apply (Hd (Write p u' s, th)); [by left|done].
  - apply IH. intros; apply Hd; [by right|done].
Qed.
Lemma stage_user os o p : stage os o p → ∀ u x k, p = DIns u x k ∨ p = DPush u x k → u = user o ∧ is_write o.
Proof. destruct 1; intros u' x' k' [E|E]; unfold write, look, to_cache in E; simplify_eq; done. Qed.
(** Changing the state of one call *)
Lemma i2_last_insert w t o p th' db c : w_calls w !! t = Some (o, Running p) →
  (∀ t o p, w_calls w !! t = Some (o, Running p) → is_write o → ∀ t' o' th', (t < t')%nat → w_calls w !! t' = Some (o', th') → is_write o' → user o' ≠ user o) →
  ∀ t1 o1 p1, w_calls (World db c (<[t := (o, th')]> (w_calls w))) !! t1 = Some (o1, Running p1) → is_write o1 →
  ∀ t' o' th0, (t1 < t')%nat → w_calls (World db c (<[t := (o, th')]> (w_calls w))) !! t' = Some (o', th0) → is_write o' → user o' ≠ user o1.
Proof.
  intros E H t1 o1 p1 H1 Hw t' o' th0 Hlt H2. simpl in *.
  assert (∃ p1', w_calls w !! t1 = Some (o1, Running p1')) as [p1' H1'].
  { destruct (decide (t1 = t)) as [->|]; [|rewrite list_lookup_insert_ne in H1 by done; eauto].
    rewrite list_lookup_insert in H1 by (by eapply lookup_lt_Some). simplify_eq. eauto. }
  assert (∃ th1, w_calls w !! t' = Some (o', th1)) as [th1 H2'].
  { destruct (decide (t' = t)) as [->|]; [|rewrite list_lookup_insert_ne in H2 by done; eauto].
    rewrite list_lookup_insert in H2 by (by eapply lookup_lt_Some). simplify_eq. eauto. }
  eapply H; eauto.
Qed.
Lemma i2_unique w t t' o o' p p' : inv2 w → w_calls w !! t = Some (o, Running p) → w_calls w !! t' = Some (o', Running p') → is_write o → is_write o' → user o = user o' → t = t'.
Proof.
  intros Hi H H' Hw Hw' Hu. destruct (decide (t = t')) as [|Hne]; [done|]. destruct (decide (t < t')%nat).
  - by destruct (i2_last _ Hi _ _ _ H Hw _ _ _ l H' Hw').
  - by destruct (i2_last _ Hi _ _ _ H' Hw' t _ _ ltac:(lia) H Hw).
Qed.
Lemma inv2_step w e w' : inv w → one_writer w e → step e w = Some w' → inv2 w → inv2 w'.
Proof.
  intros Hi He Hs Hi2. pose proof Hi2 as [Hex Hlast Hins Hpush Hm]. destruct e as [o|t f|t|u0]; simpl in Hs.
  - simplify_eq. destruct He as [He Hnw]. split; simpl.
    + unfold ops. simpl. intros x. rewrite fmap_app, elem_of_app. intros [H|H]; [by apply Hex|]. simpl in H. by apply elem_of_list_singleton in H as ->.
    + intros t1 o1 p1 H1 Hw1 t' o' th' Hlt H2 Hw2 Hu. apply lookup_app_Some in H2 as [H2|[Hl2 H2]].
      * assert (t1 < length (w_calls w))%nat by (apply lookup_lt_Some in H2; lia). rewrite lookup_app_l in H1 by done.
        exact (Hlast _ _ _ H1 Hw1 _ _ _ Hlt H2 Hw2 Hu).
      * apply list_lookup_singleton_Some in H2 as [Ht' H2]. simplify_eq. apply lookup_app_Some in H1 as [H1|[Hl1 H1]]; [|apply list_lookup_singleton_Some in H1 as [? _]; lia].
        apply Hnw; [done|]. exists t1, o1, p1. auto.
    + intros t1 o1 u x k H1. apply lookup_app_Some in H1 as [H1|[_ H1]]; [by eapply Hins|]. apply list_lookup_singleton_Some in H1 as [_ H1].
      destruct o; simpl in H1; [done|]. unfold read in H1. by destruct (_ || _).
    + intros t1 o1 u x k H1. apply lookup_app_Some in H1 as [H1|[_ H1]]; [by eapply Hpush|]. apply list_lookup_singleton_Some in H1 as [_ H1].
      destruct o; simpl in H1; [done|]. unfold read in H1. by destruct (_ || _).
    + intros u. destruct (Hm u) as (m & Hd & Hma). exists m. split; [done|]. unfold ws. rewrite omap_app. fold (ws u (w_calls w)).
      destruct o as [p u' s|u' a b]; simpl; [|by rewrite app_nil_r]. destruct (decide (u' = u)); [|by rewrite app_nil_r]. by apply M_out.
  - destruct (w_calls w !! t) as [[o [p|r|]]|] eqn:E; try done. destruct (inv_calls _ Hi _ _ _ E) as [Ho Hst]. simpl in Hst.
    destruct (act p f (w_db w) (w_cache w)) as [[db c] p'] eqn:Ea. simplify_eq.
    assert (ops (World db c (<[t:=(o, settle p')]> (w_calls w))) = ops w) as Eo by (unfold ops at 1; simpl; by eapply ops_insert).
    assert (∀ u, u ≠ user o → docs u db = docs u (w_db w)) as Hne.
    { intros u Hu. pose proof (act_docs _ _ _ f (w_db w) (w_cache w) u Hst Hu) as Hx. by rewrite Ea in Hx. }
    assert (∀ u, u ≠ user o ∨ ¬ is_write o → ws u (<[t:=(o, settle p')]> (w_calls w)) = ws u (w_calls w)) as Hws.
    { intros u Hu. rewrite (ws_split _ _ _ _ _ E), (ws_here u _ _ _ _ E). do 2 f_equal. destruct o as [q u' s|u' a b]; simpl; [|done].
      destruct (decide (u' = u)) as [Euu|]; [|done]. destruct Hu as [Hu|Hu]; [simpl in Hu; congruence|by destruct Hu]. }
    (* what has to be shown of the user of a write *)
    assert (is_write o → ∃ m, docs (user o) db = (if decide (m = []) then [] else [(user o, reverse m)]) ∧ matches (ws (user o) (<[t:=(o, settle p')]> (w_calls w))) m ∧
      (∀ u x k, p' = DIns u x k → docs u db = []) ∧ (∀ u x k, p' = DPush u x k → docs u db ≠ [])) as Hown.
    { intros Hw. destruct (Hm (user o)) as (m & Hd & Hma). rewrite (ws_here _ _ _ _ _ E) in Hma. rewrite (ws_split _ _ _ _ _ E).
      assert (ws (user o) (drop (S t) (w_calls w)) = []) as Hlater by (apply ws_later; intros; by eapply Hlast).
      rewrite Hlater in *. rewrite app_nil_r in *.
      destruct o as [q u s|]; [|done]. simpl user in *. unfold ws at 2 in Hma. unfold ws at 2. simpl in *. rewrite decide_True in * by done.
      assert (exact_op (Write q u s)) as (Eq & Eu & Es) by (by apply Hex).
      inversion Hst; subst; simpl in Ea; injection Ea as <- <- <-.
      - exists m. destruct f; simpl.
        + case_bool_decide as Hb; simpl; (split; [done|]); (split; [eapply (matches_status _ _ _ _ []); [exact Hma|done|done]|]); (split; [intros u0 x k|intros u0 x k]); intros Hq; simplify_eq; done.
        + split; [done|]. split; [|done]. eapply (matches_status _ _ _ _ []); [exact Hma|done|done].
        + destruct He. unfold finds. eauto.
      - pose proof (Hins _ _ _ _ _ E) as Hnil. rewrite Hnil in Hd. destruct (decide (m = [])) as [->|]; [|done]. apply matches_last in Hma; [|simpl; tauto].
        destruct f; simpl.
        + exists [(q, s)]. rewrite docs_app, Hnil. simpl. rewrite decide_True by done. split; [done|]. split; [by apply (M_in _ [])|]. done.
        + exists []. split; [done|]. split; [by apply M_out|]. done.
        + exists [(q, s)]. rewrite docs_app, Hnil. simpl. rewrite decide_True by done. split; [done|]. split; [by apply (M_in _ [])|]. done.
      - pose proof (Hpush _ _ _ _ _ E) as Hnil. rewrite Hd in Hnil. destruct (decide (m = [])) as [->|Hmne]; [done|]. apply matches_last in Hma; [|simpl; tauto].
        rewrite !json_small by done.
        assert (docs u (push u (q, s) (w_db w)) = (if decide (m ++ [(q, s)] = []) then [] else [(u, reverse (m ++ [(q, s)]))])) as Hp.
        { rewrite docs_push, Hd. rewrite decide_False by (by destruct m). simpl. by rewrite reverse_snoc. }
        destruct f; simpl.
        + exists (m ++ [(q, s)]). split; [done|]. split; [by apply M_in|]. done.
        + exists m. rewrite decide_False by done. split; [done|]. split; [by apply M_out|]. done.
        + exists (m ++ [(q, s)]). split; [done|]. split; [by apply M_in|]. done.
      - exists m. split; [done|]. destruct (fine f); [destruct (cached (w_cache w) u)|]; simpl; (split; [eapply (matches_status _ _ _ _ []); [exact Hma|done|done]|done]).
      - exists m. split; [done|]. destruct (fine f); simpl; (split; [eapply (matches_status _ _ _ _ []); [exact Hma|done|done]|done]). }
    assert (¬ is_write o → db = w_db w) as Hrd.
    { intros Hr. destruct o; [by destruct Hr|]. pose proof (act_read _ _ _ _ _ f (w_db w) (w_cache w) Hst) as Hx. by rewrite Ea in Hx. }
    assert (∀ u x k, p' = DIns u x k ∨ p' = DPush u x k → u = user o ∧ is_write o) as Hnext.
    { destruct (act_ok _ _ _ _ _ _ _ _ _ Hst Ho Ea (inv_cache _ Hi) (inv_db _ Hi)) as (_ & _ & [H3|(r & -> & _)]); [by eapply stage_user|].
      intros u x k [H|H]; done. }
    assert (is_write o ∨ ¬ is_write o) as Hdw by (destruct o; simpl; auto).
    assert (∀ t1 o1 u p1, t1 ≠ t → w_calls w !! t1 = Some (o1, Running p1) → u = user o1 → is_write o1 → docs u db = docs u (w_db w)) as Hothers.
    { intros t1 o1 u p1 Hnet H1 -> Hw1. destruct Hdw as [Hw|Hw]; [|by rewrite Hrd]. apply Hne. intros Hu. apply Hnet. eapply i2_unique; eauto. }
    split.
    + by rewrite Eo.
    + by eapply i2_last_insert.
    + simpl. intros t1 o1 u x k H1. destruct (decide (t1 = t)) as [->|Hnet].
      * rewrite list_lookup_insert in H1 by (by eapply lookup_lt_Some). simplify_eq.
        assert (p' = DIns u x k) as -> by (destruct p'; simpl in *; by simplify_eq). destruct (Hnext u x k ltac:(by left)) as [-> Hw]. destruct (Hown Hw) as (m & _ & _ & Hx & _). by eapply Hx.
      * rewrite list_lookup_insert_ne in H1 by done. destruct (inv_calls _ Hi _ _ _ H1) as [_ Hst1]. destruct (stage_user _ _ _ Hst1 u x k) as [Hu Hw1]; [by left|].
        rewrite (Hothers _ _ _ _ Hnet H1 Hu Hw1). by eapply Hins.
    + simpl. intros t1 o1 u x k H1. destruct (decide (t1 = t)) as [->|Hnet].
      * rewrite list_lookup_insert in H1 by (by eapply lookup_lt_Some). simplify_eq.
        assert (p' = DPush u x k) as -> by (destruct p'; simpl in *; by simplify_eq). destruct (Hnext u x k ltac:(by right)) as [-> Hw]. destruct (Hown Hw) as (m & _ & _ & _ & Hx). by eapply Hx.
      * rewrite list_lookup_insert_ne in H1 by done. destruct (inv_calls _ Hi _ _ _ H1) as [_ Hst1]. destruct (stage_user _ _ _ Hst1 u x k) as [Hu Hw1]; [by right|].
        rewrite (Hothers _ _ _ _ Hnet H1 Hu Hw1). by eapply Hpush.
    + simpl. intros u. destruct Hdw as [Hw|Hw]; [|rewrite Hrd, Hws by auto; apply Hm].
      destruct (decide (u = user o)) as [->|Hu]; [|rewrite Hne, Hws by auto; apply Hm]. destruct (Hown Hw) as (m & H1 & H2 & _). eauto.
  - destruct (w_calls w !! t) as [[o [p|r|]]|] eqn:E; try done. simplify_eq.
    assert (ops (World (w_db w) (w_cache w) (<[t:=(o, Gone)]> (w_calls w))) = ops w) as Eo by (unfold ops at 1; simpl; by eapply ops_insert).
    split.
    + by rewrite Eo.
    + by eapply i2_last_insert.
    + simpl. intros t1 o1 u x k H1. destruct (decide (t1 = t)) as [->|Hnet]; [rewrite list_lookup_insert in H1 by (by eapply lookup_lt_Some); done|].
      rewrite list_lookup_insert_ne in H1 by done. by eapply Hins.
    + simpl. intros t1 o1 u x k H1. destruct (decide (t1 = t)) as [->|Hnet]; [rewrite list_lookup_insert in H1 by (by eapply lookup_lt_Some); done|].
      rewrite list_lookup_insert_ne in H1 by done. by eapply Hpush.
    + simpl. intros u. destruct (Hm u) as (m & Hd & Hma). exists m. split; [done|]. rewrite (ws_split _ _ _ _ _ E). rewrite (ws_here _ _ _ _ _ E) in Hma.
      destruct o as [q u' s|u' a b]; [|done]. unfold ws at 2 in Hma. unfold ws at 2. simpl in *. destruct (decide (u' = u)); [|done].
      simpl in *. eapply matches_status; [exact Hma| |]; destruct p; done.
  - by simplify_eq; split.
Qed.
Lemma inv2_run es w : run one_writer started es w → inv w ∧ inv2 w.
Proof.
  remember started as w0 eqn:E0. induction 1 as [|w es w1 e w2 Hr IH HP Hs]; subst.
  - split; [apply inv_started|]. split; simpl; try done; [intros o Ho; by apply elem_of_nil in Ho|]. intros u. exists []. split; [done|constructor].
  - destruct (IH eq_refl). split; [by eapply inv_step|by eapply inv2_step].
Qed.

(** ** Calls one after the other *)
Definition range_bad (a b : Z) : bool := (b <=? a) || (a <? 0).
Definition expected (o : op) (os : list op) : reply :=
  match o with
  | Write _ _ _ => Ok
  | Read u a b => if range_bad a b then Ids [] else if decide (posts_of u os = []) then Failed else Ids (posts_of u os)
  end.
Definition dd_ok (P : list Z) (dd : list (Z * list post)) : Prop :=
  match dd with [] => P = [] | [d] => P ≠ [] ∧ ∀ q, q ∈ d.2 → q.1 ∈ P | _ => False end.
Definition ca_ok (P : list Z) (ca : option (list post)) : Prop := ∃ l, ca = Some l ∧ l.*1 = P.
Definition agree (P : list Z) (ca : option (list post)) (dd : list (Z * list post)) : Prop := ca_ok P ca ∧ dd_ok P dd.
Definition running_ok (os : list op) (o : op) (q : prog) (ca : option (list post)) (dd : list (Z * list post)) : Prop :=
  match o with
  | Write p u s =>
      let P := posts_of u os in
      (q = write p u s ∧ agree P ca dd) ∨ (q = DIns u (p, s) (to_cache p u s) ∧ agree P ca dd ∧ dd = []) ∨
      (q = DPush u (json_num p, json_num s) (to_cache p u s) ∧ agree P ca dd ∧ dd ≠ []) ∨
      (q = to_cache p u s ∧ ca_ok P ca ∧ dd_ok (P ++ [p]) dd) ∨
      (∃ l, q = CPut u (Infos (l ++ [(p, s)])) (Ret Ok) ∧ l.*1 = P ∧ dd_ok (P ++ [p]) dd)
  | Read u a b =>
      let P := posts_of u os in
      agree P ca dd ∧ range_bad a b = false ∧
      (q = look u a b ∨ q = DFirst (json_num u) (json_num b) (with_stored u P) ∨ (P ≠ [] ∧ q = ReadPosts P (Ret (Ids P))))
  end.
Record inv3 (w : world) : Prop := {
  i3_exact : ∀ o, o ∈ ops w → exact_op o;
  i3_last : ∀ t o p, w_calls w !! t = Some (o, Running p) → ∀ t' o' th', (t < t')%nat → w_calls w !! t' = Some (o', th') → user o' ≠ user o;
  i3_done : ∀ t o r, w_calls w !! t = Some (o, Done r) → r = expected o (take t (ops w));
  i3_gone : ∀ t o, w_calls w !! t ≠ Some (o, Gone);
  i3_run : ∀ t o p, w_calls w !! t = Some (o, Running p) → running_ok (take t (ops w)) o p (cached (w_cache w) (user o)) (docs (user o) (w_db w));
  i3_idle : ∀ u, ¬ busy w u → agree (posts_of u (ops w)) (cached (w_cache w) u) (docs u (w_db w)) }.
Lemma posts_of_app u a b : posts_of u (a ++ b) = posts_of u a ++ posts_of u b.
Proof. unfold posts_of. apply omap_app. Qed.
Lemma posts_of_ne u o : user o ≠ u → posts_of u [o] = [].
Proof. intros H. destruct o; simpl in *; [by rewrite decide_False|done]. Qed.
Lemma posts_later w t u : (∀ t' o' th', (t < t')%nat → w_calls w !! t' = Some (o', th') → user o' ≠ u) → posts_of u (drop (S t) (ops w)) = [].
Proof.
  intros H. assert (∀ o, o ∈ drop (S t) (ops w) → user o ≠ u) as Hd.
  { intros o Hin. apply elem_of_list_lookup in Hin as [i Hi]. rewrite lookup_drop in Hi. unfold ops in Hi. rewrite list_lookup_fmap in Hi.
    destruct (w_calls w !! (S t + i)%nat) as [[o' th]|] eqn:E; [|done]. simpl in Hi. simplify_eq. eapply H; [|done]. lia. }
  clear H. induction (drop (S t) (ops w)) as [|o l IH]; [done|]. change (o :: l) with ([o] ++ l). rewrite posts_of_app, posts_of_ne by (apply Hd; by left).
  apply IH. intros o' Ho'. apply Hd. by right.
Qed.
(** What one step of a call does to its own user *)
Lemma running_step os o q db c db' c' q' : exact_op o → running_ok os o q (cached c (user o)) (docs (user o) db) → act q Fine db c = (db', c', q') →
  (running_ok os o q' (cached c' (user o)) (docs (user o) db') ∧ settle q' = Running q') ∨
  (q' = Ret (expected o os) ∧ agree (posts_of (user o) (os ++ [o])) (cached c' (user o)) (docs (user o) db')).
Proof.
  intros Hex Hr Ha. destruct o as [p u s|u a b]; simpl user in *.
  - destruct Hex as (E1 & E2 & E3). assert (posts_of u (os ++ [Write p u s]) = posts_of u os ++ [p]) as EP by (rewrite posts_of_app; simpl; by rewrite decide_True).
    destruct Hr as [[-> Hag]|[(-> & Hag & Hnil)|[(-> & Hag & Hnn)|[(-> & Hca & Hdd)|(l & -> & Hl & Hdd)]]]]; simpl in Ha; injection Ha as <- <- <-.
    + left. case_bool_decide as Hb; (split; [|done]); simpl; [right; right; left|right; left]; auto.
    + left. split; [|done]. simpl. do 3 right. left. split; [done|]. destruct Hag as [Hca Hdd]. split; [done|].
      rewrite docs_app, Hnil. simpl. rewrite decide_True by done. split; [by destruct (posts_of u os)|]. rewrite Hnil in Hdd. simpl in Hdd. rewrite Hdd. simpl.
      intros q Hq. apply elem_of_list_singleton in Hq as ->. set_solver.
    + left. split; [|done]. simpl. do 3 right. left. split; [done|]. destruct Hag as [Hca Hdd]. split; [done|].
      rewrite docs_push, !json_small by done. destruct (docs u db) as [|d [|d' l]]; [done| |done]. simpl in *. destruct Hdd as [Hne Hdd].
      split; [by destruct (posts_of u os)|]. intros q Hq. apply elem_of_cons in Hq as [->|Hq]; [set_solver|]. apply elem_of_app. left. by apply Hdd.
    + left. destruct Hca as (l & Ec & El). rewrite Ec. split; [|done]. simpl. do 4 right. exists l. auto.
    + right. split; [done|]. rewrite EP. split; [|done]. exists (l ++ [(p, s)]). split; [unfold cached; by rewrite lookup_insert|]. rewrite fmap_app, Hl. done.
  - destruct Hex as [E1 E2]. assert (posts_of u (os ++ [Read u a b]) = posts_of u os) as EP by (rewrite posts_of_app; simpl; by rewrite app_nil_r).
    destruct Hr as (Hag & Hrg & [-> |[-> |[Hne ->]]]); simpl in Ha; injection Ha as <- <- <-.
    + left. destruct Hag as [Hca Hdd]. pose proof Hca as (l & Ec & El). rewrite Ec, El. simpl.
      destruct (a + Z.of_nat (length (posts_of u os)) <? b) eqn:Elt.
      * split; [|done]. simpl. rewrite Ec in Hca. repeat split; auto.
      * split; [|done]. simpl. split; [by split; [exists l|]|]. split; [done|]. right. right. split; [|done].
        intros Hnil. rewrite Hnil in Elt. unfold range_bad in Hrg. apply orb_false_iff in Hrg as [H1 H2]. apply Z.leb_gt in H1. apply Z.ltb_ge in Elt. change (length (@nil Z)) with 0%nat in Elt. lia.
    + rewrite !json_small by done. pose proof Hag as [Hca Hdd]. destruct (docs u db) as [|d [|d' l]] eqn:Ed; simpl in Hdd; [| |done].
      * right. split; [|by rewrite EP]. simpl. rewrite Hrg. by rewrite decide_True.
      * left. destruct Hdd as [Hne Hdd]. simpl.
        assert (filter (λ x, x ∉ posts_of u os) (take (Z.to_nat b) d.2).*1 = []) as ->.
        { apply elem_of_nil_inv. intros x Hx. apply elem_of_list_filter in Hx as [Hnx Hx]. apply elem_of_list_fmap in Hx as (q & -> & Hq). apply Hnx, Hdd.
          eapply elem_of_submseteq; [exact Hq|]. apply sublist_submseteq, sublist_take. }
        split; [|done]. simpl. split; [done|]. split; [done|]. right. right. done.
    + right. rewrite EP. split; [|done]. simpl. rewrite Hrg. by rewrite decide_False.
Qed.
Lemma inv3_step w e w' : inv w → calm w e → step e w = Some w' → inv3 w → inv3 w'.
Proof.
  intros Hi He Hs Hi3. pose proof Hi3 as [Hex Hlast Hdone Hgone Hrun Hidle]. destruct e as [o|t f|t|u0]; simpl in Hs, He; [| |done|done].
  - simplify_eq. destruct He as [He Hnb].
    set (w' := World (w_db w) (w_cache w) (w_calls w ++ [(o, settle (program o))])).
    assert (ops w' = ops w ++ [o]) as Eo by (unfold ops, w'; simpl; by rewrite fmap_app).
    assert (length (ops w) = length (w_calls w)) as El by (unfold ops; by rewrite fmap_length).
    assert (∀ t, (t ≤ length (w_calls w))%nat → take t (ops w') = take t (ops w)) as Etk by (intros t Ht; rewrite Eo; apply take_app_le; lia).
    assert (agree (posts_of (user o) (ops w)) (cached (w_cache w) (user o)) (docs (user o) (w_db w))) as Hag by (by apply Hidle).
    split; simpl.
    + intros x. rewrite Eo, elem_of_app, elem_of_list_singleton. intros [H| ->]; auto.
    + intros t1 o1 p1 H1 t' o' th' Hlt H2. apply lookup_app_Some in H2 as [H2|[Hl2 H2]].
      * assert (t1 < length (w_calls w))%nat by (apply lookup_lt_Some in H2; lia). rewrite lookup_app_l in H1 by done. exact (Hlast _ _ _ H1 _ _ _ Hlt H2).
      * apply list_lookup_singleton_Some in H2 as [Ht' H2]. simplify_eq. apply lookup_app_Some in H1 as [H1|[Hl1 H1]]; [|apply list_lookup_singleton_Some in H1 as [? _]; lia].
        intros Hu. apply Hnb. exists t1, o1, p1. auto.
    + intros t1 o1 r H1. apply lookup_app_Some in H1 as [H1|[Hl1 H1]].
      * rewrite Etk by (apply lookup_lt_Some in H1; lia). by apply Hdone.
      * apply list_lookup_singleton_Some in H1 as [Ht1 H1]. destruct o as [p u s|u a b]; [done|]. simpl in H1. unfold read in H1. fold (range_bad a b) in H1.
        destruct (range_bad a b) eqn:Erb; [|done]. simpl in H1. simplify_eq. simpl. by rewrite Erb.
    + intros t1 o1 H1. apply lookup_app_Some in H1 as [H1|[Hl1 H1]]; [by eapply Hgone|]. apply list_lookup_singleton_Some in H1 as [Ht1 H1].
      destruct o as [p u s|u a b]; [done|]. simpl in H1. unfold read in H1. by destruct (_ || _).
    + intros t1 o1 p1 H1. apply lookup_app_Some in H1 as [H1|[Hl1 H1]].
      * rewrite Etk by (apply lookup_lt_Some in H1; lia). by apply Hrun.
      * apply list_lookup_singleton_Some in H1 as [Ht1 H1]. assert (t1 = length (w_calls w)) as -> by lia. rewrite Etk by lia. rewrite take_ge by lia.
        destruct o as [p u s|u a b]; simpl in H1; [simplify_eq; simpl; by left|]. unfold read in H1. fold (range_bad a b) in H1. destruct (range_bad a b) eqn:Erb; [done|].
        simpl in H1. simplify_eq. simpl. split; [done|]. split; [done|]. by left.
    + intros u Hnb'. destruct (decide (user o = u)) as [<-|Hne].
      * rewrite Eo, posts_of_app. destruct o as [p u s|u a b]; simpl in *; [|by rewrite app_nil_r].
        destruct Hnb'. exists (length (w_calls w)), (Write p u s), (write p u s). split; [|done]. unfold w'. simpl. by rewrite lookup_app_r, Nat.sub_diag by lia.
      * rewrite Eo, posts_of_app, posts_of_ne, app_nil_r by done. apply Hidle. intros (t & o' & p & H1 & H2). apply Hnb'. exists t, o', p. split; [|done].
        unfold w'. simpl. by apply lookup_app_l_Some.
  - subst f. destruct (w_calls w !! t) as [[o [q|r|]]|] eqn:E; try done. destruct (inv_calls _ Hi _ _ _ E) as [Ho Hst]. simpl in Hst.
    destruct (act q Fine (w_db w) (w_cache w)) as [[db c] q'] eqn:Ea. simplify_eq.
    assert (ops (World db c (<[t:=(o, settle q')]> (w_calls w))) = ops w) as Eo by (unfold ops at 1; simpl; by eapply ops_insert).
    assert (∀ u, u ≠ user o → docs u db = docs u (w_db w) ∧ cached c u = cached (w_cache w) u) as Hne.
    { intros u Hu. pose proof (act_docs _ _ _ Fine (w_db w) (w_cache w) u Hst Hu) as Hx. pose proof (stage_put _ _ _ Fine (w_db w) (w_cache w) u Hst Hu) as Hy.
      rewrite Ea in Hx, Hy. simpl in *. split; [done|]. unfold cached. by rewrite Hy. }
    pose proof (running_step _ _ _ _ _ _ _ _ (Hex _ Ho) (Hrun _ _ _ E) Ea) as Hrs.
    assert (t < length (w_calls w))%nat as Hlt by (by eapply lookup_lt_Some).
    assert (∀ t1 o1 p1, t1 ≠ t → w_calls w !! t1 = Some (o1, Running p1) → user o1 ≠ user o) as Hother.
    { intros t1 o1 p1 Hnet H1. destruct (decide (t1 < t)%nat) as [Hl1|Hl1].
      - intros Hu. exact (Hlast _ _ _ H1 _ _ _ Hl1 E (eq_sym Hu)).
      - assert (t < t1)%nat as Hl2 by lia. exact (Hlast _ _ _ E _ _ _ Hl2 H1). }
    split; rewrite ?Eo; simpl.
    + done.
    + intros t1 o1 p1 H1 t' o' th' Hlt' H2.
      assert (∃ p1', w_calls w !! t1 = Some (o1, Running p1')) as [p1' H1'].
      { destruct (decide (t1 = t)) as [->|]; [|rewrite list_lookup_insert_ne in H1 by done; eauto]. rewrite list_lookup_insert in H1 by done. simplify_eq. eauto. }
      assert (∃ th1, w_calls w !! t' = Some (o', th1)) as [th1 H2'].
      { destruct (decide (t' = t)) as [->|]; [|rewrite list_lookup_insert_ne in H2 by done; eauto]. rewrite list_lookup_insert in H2 by done. simplify_eq. eauto. }
      eapply Hlast; eauto.
    + intros t1 o1 r H1. destruct (decide (t1 = t)) as [->|]; [|rewrite list_lookup_insert_ne in H1 by done; eauto]. rewrite list_lookup_insert in H1 by done.
      destruct Hrs as [[_ Hsq]|[Hsq _]]; [rewrite Hsq in H1; done|]. rewrite Hsq in H1. simpl in H1. by injection H1 as <- <-.
    + intros t1 o1 H1. destruct (decide (t1 = t)) as [->|]; [|rewrite list_lookup_insert_ne in H1 by done; by eapply Hgone]. rewrite list_lookup_insert in H1 by done.
      destruct q'; done.
    + intros t1 o1 p1 H1. destruct (decide (t1 = t)) as [->|Hnet].
      * rewrite list_lookup_insert in H1 by done. destruct Hrs as [[Hr Hsq]|[-> _]]; [|done]. rewrite Hsq in H1. simplify_eq. done.
      * rewrite list_lookup_insert_ne in H1 by done. destruct (Hne (user o1)) as [-> ->]; [by eapply Hother|]. by apply Hrun.
    + intros u Hnb. destruct (decide (u = user o)) as [->|Hu].
      * destruct Hrs as [[Hr Hsq]|[-> Hag]].
        { destruct Hnb. exists t, o, q'. split; [|done]. simpl. rewrite list_lookup_insert by done. by rewrite Hsq. }
        assert (ops w = (take t (ops w) ++ [o]) ++ drop (S t) (ops w)) as Esp.
        { rewrite <-app_assoc. symmetry. apply take_drop_middle. unfold ops. by rewrite list_lookup_fmap, E. }
        rewrite Esp, posts_of_app, (posts_later w t), app_nil_r by (intros; by eapply Hlast). done.
      * destruct (Hne u Hu) as [-> ->]. apply Hidle. intros (t1 & o1 & p1 & H1 & H2). apply Hnb. exists t1, o1, p1. split; [|done]. simpl.
        rewrite list_lookup_insert_ne; [done|]. intros ->. simplify_eq.
Qed.
Lemma inv3_run es w : run calm started es w → inv w ∧ inv3 w.
Proof.
  remember started as w0 eqn:E0. induction 1 as [|w es w1 e w2 Hr IH HP Hs]; subst.
  - split; [apply inv_started|]. split; simpl; try done; [intros o Ho; by apply elem_of_nil in Ho|]. intros u _. split; [by exists []|done].
  - destruct (IH eq_refl). split; [by eapply inv_step|by eapply inv3_step].
Qed.
