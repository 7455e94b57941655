From Verif Require Export JsonNum_Proof.
From Verif Require Import SocialGraph_Model SocialGraph_Spec.
From stdpp Require Import list.
Set Default Proof Using "Type".
Open Scope Z_scope.

(** ** Views: what a key says *)
Definition ku (k : ckey) : Z := match k with Fers u | Fees u => u end.
Definition sel (k : ckey) (d : udoc) : list Z := match k with Fers _ => u_fers d | Fees _ => u_fees d end.
Definition view (c : gmap ckey (list Z)) (ds : list udoc) (k : ckey) : option (list Z) * option (list Z) :=
  (c !! k, sel k <$> find_doc ds (ku k)).
Definition ideal (l : list op) (k : ckey) : list Z := match k with Fers u => followers l u | Fees u => followees l u end.
Definition edge (o : op) : Prop := match o with Follow _ _ | Unfollow _ _ => True | _ => False end.
Definition touched (l : list op) (k : ckey) : Prop := ∃ o, o ∈ l ∧ edge o ∧ k ∈ uses o.
Definition inserted (l : list op) (k : ckey) : Prop := AddUser (ku k) ∈ l.
Definition key_ok (vw : option (list Z) * option (list Z)) (l : list op) (k : ckey) : Prop :=
  (∀ v, vw.1 = Some v → v = ideal l k ∧ (touched l k ∨ inserted l k)) ∧
  (touched l k → is_Some vw.1) ∧ (is_Some vw.2 ↔ inserted l k) ∧
  (¬ touched l k → ∀ v, vw.2 = Some v → v = []).

Lemma known_key l k : (touched l k ∨ inserted l k) ↔ match k with Fers u => known_target l u | Fees u => known_origin l u end.
Proof.
  unfold touched, inserted, known_target, known_origin. destruct k as [u|u]; cbn [ku]; split.
  - intros [(o & Ho & He & Hk)|H]; [|by eauto]. exists o. split; [done|]. right.
    destruct o; try done; simpl in Hk; rewrite !elem_of_cons, elem_of_nil in Hk; destruct Hk as [[=]|[[= ->]|[]]]; eauto.
  - intros (o & Ho & [->|(a & [->| ->])]); [by right|left|left]; eexists; (split; [done|]); (split; [done|]); simpl; set_solver.
  - intros [(o & Ho & He & Hk)|H]; [|by eauto]. exists o. split; [done|]. right.
    destruct o; try done; simpl in Hk; rewrite !elem_of_cons, elem_of_nil in Hk; destruct Hk as [[= ->]|[[=]|[]]]; eauto.
  - intros (o & Ho & [->|(a & [->| ->])]); [by right|left|left]; eexists; (split; [done|]); (split; [done|]); simpl; set_solver.
Qed.

(** One more call *)
Lemma ideal_snoc l o k : ideal (l ++ [o]) k = match k with Fers u => follower_step u (ideal l k) o | Fees u => followee_step u (ideal l k) o end.
Proof. destruct k; unfold ideal, followers, followees; by rewrite foldl_app. Qed.
Lemma ideal_frame l o k : k ∉ uses o ∨ ¬ edge o → ideal (l ++ [o]) k = ideal l k.
Proof.
  intros H. rewrite ideal_snoc. destruct k as [u|u], o as [a|a|a|a b|a b]; simpl in *; try done;
    (destruct H as [H|H]; [|by destruct H]); (case_decide; [|done]); subst; exfalso; apply H; set_solver.
Qed.
Lemma touched_frame l o k : k ∉ uses o ∨ ¬ edge o → touched (l ++ [o]) k ↔ touched l k.
Proof.
  intros H. unfold touched. split; intros (o' & Ho & He & Hk); exists o'; (split; [|done]); [|set_solver].
  apply elem_of_app in Ho as [?|Ho%elem_of_list_singleton]; [done|]. subst. by destruct H.
Qed.
Lemma inserted_frame l o k : k ∉ uses o ∨ (∀ u, o ≠ AddUser u) → inserted (l ++ [o]) k ↔ inserted l k.
Proof.
  intros H. unfold inserted. rewrite elem_of_app, elem_of_list_singleton. split; [|by left]. intros [?|<-]; [done|].
  destruct H as [H|H]; [|by destruct (H (ku k))]. exfalso. apply H. destruct k; simpl; set_solver.
Qed.
Lemma key_ok_frame vw l o k : k ∉ uses o → key_ok vw l k → key_ok vw (l ++ [o]) k.
Proof.
  intros Hk (H1 & H2 & H3 & H4).
  pose proof (ideal_frame l o k ltac:(auto)) as Ei. pose proof (touched_frame l o k ltac:(auto)) as Et.
  pose proof (inserted_frame l o k ltac:(auto)) as En. split; [|split; [|split]].
  - intros v Hv. rewrite Ei, Et, En. by apply H1.
  - rewrite Et. done.
  - by rewrite H3, En.
  - rewrite Et. done.
Qed.
Lemma ideal_untouched l k : ¬ touched l k → ideal l k = [].
Proof.
  induction l as [|o l IH] using rev_ind; intros H; [by destruct k|].
  assert (k ∉ uses o ∨ ¬ edge o) as Ho.
  { destruct (decide (k ∈ uses o)); [|by left]. right. intros He. apply H. exists o. set_solver. }
  rewrite ideal_frame by done. apply IH. intros Ht. apply H. by apply touched_frame.
Qed.
Lemma touched_dec l k : touched l k ∨ ¬ touched l k.
Proof.
  induction l as [|o l IH] using rev_ind; [right; intros (o & H & _); by apply elem_of_nil in H|].
  destruct IH as [H|H]; [left; destruct H as (o' & ? & ?); exists o'; set_solver|].
  destruct (decide (k ∈ uses o)) as [Hk|Hk].
  - destruct o as [a|a|a|a b|a b]; (by left; eexists; split; [apply elem_of_app; right; by left|]) || (right; rewrite touched_frame; [done|right; by intros []]).
  - right. rewrite touched_frame; [done|by left].
Qed.
Lemma key_ok_got vw l k : key_ok vw l k → match vw.1 with Some v => v = ideal l k | None => ideal l k = [] end.
Proof.
  intros (H1 & H2 & _). destruct (vw.1) as [v|] eqn:E; [by apply H1|]. apply ideal_untouched. intros H. destruct (H2 H) as [? ?]. congruence.
Qed.

(** ** Running calls *)
Definition get_key (o : op) : option ckey := match o with GetFers u => Some (Fers u) | GetFees u => Some (Fees u) | _ => None end.
Definition sel_f (k : ckey) : udoc → list Z := match k with Fers _ => u_fers | Fees _ => u_fees end.
Definition get_ok (k : ckey) (right : reply → Prop) (ps : list prog) (vw : ckey → option (list Z) * option (list Z)) (l : list op) : Prop :=
  key_ok (vw k) l k ∧
  (ps = [get_list k (sel_f k) (ku k)] ∨
   (vw k).1 = None ∧ ps = [DFind (json_num (ku k)) (λ d, match d with
        | None => Ret Failed
        | Some d => let l := (λ _, 0) <$> sel_f k d in CPut k l true (Ret (Ids l))
        end)] ∨
   (vw k).1 = None ∧ inserted l k ∧ ps = [CPut k [] true (Ret (Ids []))] ∨
   ∃ r, ps = [Ret r] ∧ right r).
Definition edge_ok (u v : Z) (f g : list Z → list Z) (d1 d2 : prog) (ps : list prog)
    (vw : ckey → option (list Z) * option (list Z)) (l : list op) : Prop :=
  let fees := ideal l (Fees u) in let fers := ideal l (Fers v) in
  let before k := match (vw k).1 with Some x => x = ideal l k | None => ideal l k = [] end in
  (∀ k, k ∈ [Fees u; Fers v] → is_Some (vw k).2 ↔ inserted l k) ∧
  ∃ p1 p2 p3, ps = [p1; p2; p3] ∧ (p1 = d1 ∨ p1 = Ret Ok) ∧ (p2 = d2 ∨ p2 = Ret Ok) ∧
  (p3 = update_cache u v f g ∧ before (Fees u) ∧ before (Fers v) ∨
   (∃ r1, got r1 = fees ∧ before (Fees u) ∧ before (Fers v) ∧
      p3 = CGet (Fers v) (λ r2, CPut (Fees u) (f (got r1)) false (CPut (Fers v) (g (got r2)) false (Ret Ok)))) ∨
   p3 = CPut (Fees u) (f fees) false (CPut (Fers v) (g fers) false (Ret Ok)) ∨
   p3 = CPut (Fers v) (g fers) false (Ret Ok) ∧ (vw (Fees u)).1 = Some (f fees) ∨
   p3 = Ret Ok ∧ (vw (Fees u)).1 = Some (f fees) ∧ (vw (Fers v)).1 = Some (g fers)).
Definition prog_ok (o : op) (ps : list prog) (vw : ckey → option (list Z) * option (list Z)) (l : list op) : Prop :=
  match o with
  | AddUser u =>
      (ps = insert_user u ∧ ∀ k, k ∈ uses o → key_ok (vw k) l k) ∨
      (ps = [Ret Ok] ∧ ∀ k, k ∈ uses o → key_ok (vw k) (l ++ [o]) k)
  | GetFers u => get_ok (Fers u) (right l o) ps vw l
  | GetFees u => get_ok (Fees u) (right l o) ps vw l
  | Follow u v =>
      edge_ok u v (λ l, l ++ [v]) (λ l, l ++ [u])
        (DUpd (json_num u) (λ d, UDoc (u_id d) (u_fers d) (u_fees d ++ [json_num v])) (Ret Ok))
        (DUpd (json_num v) (λ d, UDoc (u_id d) (u_fers d ++ [json_num u]) (u_fees d)) (Ret Ok)) ps vw l
  | Unfollow u v =>
      edge_ok u v (filter (.≠ v)) (filter (.≠ u))
        (DUpd (json_num u) (λ d, UDoc (u_id d) (u_fers d) (filter (.≠ json_num v) (u_fees d))) (Ret Ok))
        (DUpd (json_num v) (λ d, UDoc (u_id d) (filter (.≠ json_num u) (u_fers d)) (u_fees d)) (Ret Ok)) ps vw l
  end.
Definition thread_ok (o : op) (s : thread) (vw : ckey → option (list Z) * option (list Z)) (l : list op) : Prop :=
  match s with
  | Running ps => prog_ok o ps vw l
  | Done r => right l o r ∧ ∀ k, k ∈ uses o → key_ok (vw k) (l ++ [o]) k
  end.

(** *** Databases *)
Lemma find_app ds d u : find_doc (ds ++ [d]) u =
  match find_doc ds u with Some x => Some x | None => if decide (u_id d = u) then Some d else None end.
Proof.
  unfold find_doc. induction ds as [|d' ds IH]; [simpl; rewrite filter_cons; by case_decide|].
  cbn [app]. rewrite !filter_cons. destruct (decide (u_id d' = u)); [done|exact IH].
Qed.
Lemma find_id ds u d : find_doc ds u = Some d → u_id d = u.
Proof.
  unfold find_doc. induction ds as [|d' ds IH]; [done|]. rewrite filter_cons. case_decide; [|exact IH]. intros [= <-]. done.
Qed.
Lemma find_upd ds u g u' : (∀ d, u_id (g d) = u_id d) →
  find_doc (upd_doc ds u g) u' = if decide (u' = u) then g <$> find_doc ds u else find_doc ds u'.
Proof.
  intros Hg. unfold find_doc. induction ds as [|d ds IH]; [by case_decide|]. cbn [upd_doc].
  case_bool_decide as Hd; rewrite !filter_cons.
  - rewrite Hg. destruct (decide (u' = u)) as [->|Hne]; [by rewrite !decide_True|]. rewrite !decide_False by congruence. done.
  - rewrite (decide_False (P := u_id d = u)) by done. destruct (decide (u' = u)) as [->|Hne]; [by rewrite decide_False|].
    destruct (decide (u_id d = u')); [done|exact IH].
Qed.
Lemma view_upd c ds u g k : (∀ d, u_id (g d) = u_id d) →
  (ku k ≠ u ∨ ∀ d, sel k (g d) = sel k d) → view c (upd_doc ds u g) k = view c ds k.
Proof.
  intros Hg Hk. unfold view. rewrite find_upd by done. case_decide as E; [|done]. f_equal. rewrite E. rewrite <- option_fmap_compose.
  destruct Hk as [Hk|Hk]; [done|]. destruct (find_doc ds u) as [d|]; [|done]. simpl. by rewrite Hk.
Qed.
Lemma exists_upd c ds u g k : (∀ d, u_id (g d) = u_id d) → is_Some (view c (upd_doc ds u g) k).2 ↔ is_Some (view c ds k).2.
Proof.
  intros Hg. unfold view. cbn [snd]. rewrite find_upd by done. rewrite !fmap_is_Some. case_decide as E; [|done]. by rewrite fmap_is_Some, E.
Qed.
Lemma view_put c ds k v k' : k' ≠ k → view (<[k := v]> c) ds k' = view c ds k'.
Proof. intros H. unfold view. by rewrite lookup_insert_ne. Qed.
Lemma view_put_2 c ds k v k' : (view (<[k := v]> c) ds k').2 = (view c ds k').2.
Proof. done. Qed.
Lemma view_put_1 c ds k v : (view (<[k := v]> c) ds k).1 = Some v.
Proof. unfold view. simpl. by rewrite lookup_insert. Qed.

(** *** One step of a goroutine *)
Definition next (ps : list prog) (g : nat) (p' : prog) : list prog := <[g := p']> ps.
Lemma add_step u c ds l g p : prog_ok (AddUser u) (insert_user u) (view c ds) l → insert_user u !! g = Some p →
  let '(p', c', ds') := exec p Fine c ds in
  prog_ok (AddUser u) (next (insert_user u) g p') (view c' ds') l ∧ ∀ k, k ∉ uses (AddUser u) → view c' ds' k = view c ds k.
Proof.
  intros [[_ Hk]|[? _]] Hp; [|done]. destruct g as [|g]; [|by destruct g]. injection Hp as <-. simpl. split.
  - right. split; [done|]. intros k Hin. specialize (Hk k Hin) as (H1 & H2 & H3 & H4).
    assert (ku k = u) as Hu by (simpl in Hin; rewrite !elem_of_cons, elem_of_nil in Hin; by destruct Hin as [->|[->|[]]]).
    pose proof (ideal_frame l (AddUser u) k ltac:(right; by intros [])) as Ei.
    pose proof (touched_frame l (AddUser u) k ltac:(right; by intros [])) as Et. unfold key_ok.
    assert (inserted (l ++ [AddUser u]) k) as Hi by (unfold inserted; rewrite Hu; set_solver).
    unfold view in *. simpl in *. split; [intros v Hv; split; [rewrite Ei; by apply H1|by right]|]. split; [rewrite Et; done|]. split.
    + split; [done|]. intros _. rewrite find_app. destruct (find_doc ds (ku k)); [by eexists|]. simpl. rewrite decide_True by done. by eexists.
    + rewrite Et. intros Ht v Hv. rewrite find_app in Hv. destruct (find_doc ds (ku k)) as [d|] eqn:Ed; [by apply H4|].
      simpl in Hv. rewrite decide_True in Hv by done. injection Hv as <-. by destruct k.
  - intros k Hn. unfold view. f_equal. rewrite find_app. destruct (find_doc ds (ku k)); [done|]. simpl. rewrite decide_False; [done|].
    intros ->. apply Hn. destruct k; simpl; set_solver.
Qed.
Lemma get_step k R c ds l ps g p : json_num (ku k) = ku k → (∀ r, R r ↔ (touched l k ∨ inserted l k) ∧ r = Ids (ideal l k) ∨ ¬ (touched l k ∨ inserted l k) ∧ r = Failed) →
  get_ok k R ps (view c ds) l → ps !! g = Some p → (∀ r, p ≠ Ret r) →
  let '(p', c', ds') := exec p Fine c ds in
  get_ok k R (next ps g p') (view c' ds') l ∧ ∀ k', k' ∉ [k] → view c' ds' k' = view c ds k'.
Proof.
  intros Hj HR [Hk [->|[[Hn ->]|[(Hn & Hi & ->)|(r & -> & Hr)]]]] Hp Hne; (destruct g as [|g]; [|by destruct g]); injection Hp as <-.
  - simpl. split; [|done]. split; [done|]. right. destruct (c !! k) as [v|] eqn:Ec.
    + right. right. eexists. split; [done|]. apply HR. left. destruct Hk as (H1 & _). destruct (H1 v) as [-> ?]; [by unfold view; rewrite Ec|]. done.
    + left. unfold view. split; [done|]. done.
  - simpl. rewrite Hj. split; [|done]. split; [done|]. right. right. unfold view in Hn. simpl in Hn. pose proof Hk as (_ & H2 & H3 & H4).
    assert (¬ touched l k) as Ht by (intros H; destruct (H2 H) as [? E]; unfold view in E; simpl in E; congruence).
    destruct (find_doc ds (ku k)) as [d|] eqn:Ed.
    + left. split; [done|]. split; [apply H3; unfold view; by rewrite Ed|].
      assert (sel_f k d = []) as E by (specialize (H4 Ht (sel k d)); unfold view in H4; simpl in H4; rewrite Ed in H4; specialize (H4 eq_refl); by destruct k).
      by rewrite E.
    + right. eexists. split; [done|]. apply HR. right. split; [|done]. intros [?|Hi]; [done|]. apply H3 in Hi as [? Hi]. unfold view in Hi. simpl in Hi. by rewrite Ed in Hi.
  - simpl. destruct Hk as (H1 & H2 & H3 & H4). assert (¬ touched l k) as Ht by (intros H; destruct (H2 H) as [? E]; unfold view in *; simpl in *; congruence).
    assert (ideal l k = []) as Hid by (by apply ideal_untouched). split.
    + split.
      * split; [|split; [done|split; [done|done]]]. intros v. rewrite view_put_1. intros [= <-]. split; [done|by right].
      * right. right. right. eexists. split; [done|]. apply HR. left. split; [by right|]. by rewrite Hid.
    + intros k' Hk'. apply view_put. set_solver.
  - by destruct (Hne r).
Qed.
Lemma edge_step u v f g d1 d2 a1 a2 c ds l ps i p :
  d1 = DUpd u a1 (Ret Ok) → d2 = DUpd v a2 (Ret Ok) →
  (∀ d, u_id (a1 d) = u_id d ∧ u_fers (a1 d) = u_fers d) → (∀ d, u_id (a2 d) = u_id d ∧ u_fees (a2 d) = u_fees d) →
  edge_ok u v f g d1 d2 ps (view c ds) l → ps !! i = Some p → (∀ r, p ≠ Ret r) →
  let '(p', c', ds') := exec p Fine c ds in
  edge_ok u v f g d1 d2 (next ps i p') (view c' ds') l ∧ ∀ k, k ∉ [Fees u; Fers v] → view c' ds' k = view c ds k.
Proof.
  intros E1 E2 Ha1 Ha2 [Hex (p1 & p2 & p3 & -> & H1 & H2 & H3)] Hp Hne. destruct i as [|[|[|i]]]; [| | |done]; injection Hp as <-.
  - destruct H1 as [->| ->]; [|by destruct (Hne Ok)]. rewrite E1. cbn [exec fine done_by]. split.
    + split; [intros k Hk; rewrite exists_upd by (intros; apply Ha1); by apply Hex|].
      exists (Ret Ok), p2, p3. split; [done|]. split; [by right|]. split; [done|exact H3].
    + intros k Hk. apply view_upd; [intros; apply Ha1|]. destruct k as [x|x]; [right; intros; apply Ha1|left]. simpl. intros ->. set_solver.
  - destruct H2 as [->| ->]; [|by destruct (Hne Ok)]. rewrite E2. cbn [exec fine done_by]. split.
    + split; [intros k Hk; rewrite exists_upd by (intros; apply Ha2); by apply Hex|].
      exists p1, (Ret Ok), p3. split; [done|]. split; [done|]. split; [by right|exact H3].
    + intros k Hk. apply view_upd; [intros; apply Ha2|]. destruct k as [x|x]; [left|right; intros; apply Ha2]. simpl. intros ->. set_solver.
  - destruct H3 as [(-> & B1 & B2)|[(r1 & Hr1 & B1 & B2 & ->)|[->|[[-> B1]|(-> & _ & _)]]]]; [| | | |by destruct (Hne Ok)].
    + cbn [exec update_cache fine]. split; [|done]. split; [done|]. do 3 eexists. split; [done|]. split; [done|]. split; [done|].
      right. left. eexists. split; [|split; [exact B1|split; [exact B2|done]]]. unfold view in B1. simpl in B1. by destruct (c !! Fees u).
    + cbn [exec fine]. split; [|done]. split; [done|]. do 3 eexists. split; [done|]. split; [done|]. split; [done|].
      right. right. left. rewrite Hr1. unfold view in B2. simpl in B2. assert (got (match c !! Fers v with Some x => Hit x | None => Miss end) = ideal l (Fers v)) as -> by (by destruct (c !! Fers v)).
      done.
    + cbn [exec fine orb done_by]. split.
      * split; [intros k Hk; rewrite view_put_2; by apply Hex|]. do 3 eexists. split; [done|]. split; [done|]. split; [done|].
        right. right. right. left. split; [done|]. by rewrite view_put_1.
      * intros k Hk. apply view_put. set_solver.
    + cbn [exec fine orb done_by]. split.
      * split; [intros k Hk; rewrite view_put_2; by apply Hex|]. do 3 eexists. split; [done|]. split; [done|]. split; [done|].
        do 4 right. split; [done|]. rewrite view_put_1. by rewrite view_put.
      * intros k Hk. apply view_put. set_solver.
Qed.

(** *** Calls *)
Lemma right_get l o k r : get_key o = Some k →
  right l o r ↔ (touched l k ∨ inserted l k) ∧ r = Ids (ideal l k) ∨ ¬ (touched l k ∨ inserted l k) ∧ r = Failed.
Proof. destruct o; intros [= <-]; rewrite known_key; done. Qed.
Definition small_op (o : op) : Prop := ∀ u, u ∈ users o → json_num u = u.
Lemma step_ok o ps g p c ds l : small_op o → prog_ok o ps (view c ds) l → ps !! g = Some p → (∀ r, p ≠ Ret r) →
  let '(p', c', ds') := exec p Fine c ds in
  prog_ok o (next ps g p') (view c' ds') l ∧ ∀ k, k ∉ uses o → view c' ds' k = view c ds k.
Proof.
  intros Hs Hok Hp Hne. destruct o as [u|u|u|u v|u v].
  - destruct Hok as [[-> Hk]|[-> Hk]].
    + apply add_step; [by left|done].
    + destruct g as [|g]; [|by destruct g]. injection Hp as <-. by destruct (Hne Ok).
  - apply (get_step (Fers u)); [apply Hs; by left| |done|done|done]. intros r. by apply right_get.
  - apply (get_step (Fees u)); [apply Hs; by left| |done|done|done]. intros r. by apply right_get.
  - assert (json_num u = u) as Hu by (apply Hs; by left). assert (json_num v = v) as Hv by (apply Hs; right; by left).
    unfold prog_ok in *. rewrite Hu, Hv in *. eapply edge_step; done.
  - assert (json_num u = u) as Hu by (apply Hs; by left). assert (json_num v = v) as Hv by (apply Hs; right; by left).
    unfold prog_ok in *. rewrite Hu, Hv in *. eapply edge_step; done.
Qed.

Lemma edge_settle o u v f g a1 a2 x1 x2 ps vw l :
  (∀ r, right l o r ↔ r = Ok) → uses o = [Fees u; Fers v] → edge o →
  ideal (l ++ [o]) (Fees u) = f (ideal l (Fees u)) → ideal (l ++ [o]) (Fers v) = g (ideal l (Fers v)) →
  edge_ok u v f g (DUpd x1 a1 (Ret Ok)) (DUpd x2 a2 (Ret Ok)) ps vw l →
  match settle ps with
  | Running _ => True
  | Done r => right l o r ∧ ∀ k, k ∈ uses o → key_ok (vw k) (l ++ [o]) k
  end.
Proof.
  intros HR Hu He Hf Hg [Hex (p1 & p2 & p3 & -> & H1 & H2 & H3)]. unfold settle.
  destruct H1 as [->| ->]; [done|]. destruct H2 as [->| ->]; [done|].
  destruct H3 as [(-> & _)|[(r1 & _ & _ & _ & ->)|[->|[[-> _]|(-> & B1 & B2)]]]]; [done..|].
  cbn [outcome]. split; [by apply HR|]. rewrite Hu. intros k Hk.
  assert (touched (l ++ [o]) k) as Ht by (exists o; split; [set_solver|]; split; [done|]; by rewrite Hu).
  assert (inserted (l ++ [o]) k ↔ inserted l k) as Hi by (apply inserted_frame; right; intros x ->; done).
  unfold key_ok. rewrite Hi. split.
  - intros x Hx. split; [|by left]. rewrite !elem_of_cons, elem_of_nil in Hk. destruct Hk as [->|[->|[]]]; congruence.
  - split; [intros _; rewrite !elem_of_cons, elem_of_nil in Hk; destruct Hk as [->|[->|[]]]; eauto|]. split; [by apply Hex|done].
Qed.
Lemma get_settle o k ps vw l : get_key o = Some k → get_ok k (right l o) ps vw l →
  match settle ps with
  | Running _ => True
  | Done r => right l o r ∧ ∀ k, k ∈ uses o → key_ok (vw k) (l ++ [o]) k
  end.
Proof.
  intros Ho [Hk H]. destruct H as [->|[[_ ->]|[(_ & _ & ->)|(r & -> & Hr)]]]; [done..|]. unfold settle.
  assert (outcome [Ret r] = Some r) as -> by (by destruct r). split; [done|].
  assert (uses o = [k]) as -> by (destruct o; by simplify_eq/=). intros k' ->%elem_of_list_singleton.
  assert (¬ edge o) as He by (destruct o; by try intros []). destruct Hk as (H1 & H2 & H3 & H4).
  pose proof (ideal_frame l o k (or_intror He)) as Ei. pose proof (touched_frame l o k (or_intror He)) as Et.
  assert (inserted (l ++ [o]) k ↔ inserted l k) as En by (apply inserted_frame; right; intros x ->; done).
  split; [|split; [|split]]; [intros v Hv; rewrite Ei, Et, En; by apply H1|by rewrite Et|by rewrite H3, En|by rewrite Et].
Qed.
Lemma settle_ok o ps vw l : prog_ok o ps vw l → thread_ok o (settle ps) vw l.
Proof.
  intros H. assert (match settle ps with Running _ => True | Done r => right l o r ∧ ∀ k, k ∈ uses o → key_ok (vw k) (l ++ [o]) k end) as Hd.
  { destruct o as [u|u|u|u v|u v].
    - destruct H as [[-> _]|[-> H]]; [done|]. unfold settle. simpl. done.
    - by apply (get_settle _ (Fers u)).
    - by apply (get_settle _ (Fees u)).
    - eapply edge_settle; [done|done|done| | |exact H]; rewrite ideal_snoc; simpl; by rewrite decide_True.
    - eapply edge_settle; [done|done|done| | |exact H]; rewrite ideal_snoc; simpl; by rewrite decide_True. }
  unfold thread_ok. unfold settle in *. by destruct (outcome ps).
Qed.

(** A running call does not notice calls about other parts of the graph. *)
Lemma prog_ok_frame o ps vw vw' l : (∀ k, k ∈ uses o → vw' k = vw k) → prog_ok o ps vw l → prog_ok o ps vw' l.
Proof.
  intros Hv. destruct o as [u|u|u|u v|u v]; unfold prog_ok.
  - intros [[-> H]|[-> H]]; [left|right]; (split; [done|]); intros k Hk; rewrite Hv by done; auto.
  - unfold get_ok. rewrite (Hv (Fers u)) by (by left). done.
  - unfold get_ok. rewrite (Hv (Fees u)) by (by left). done.
  - unfold edge_ok. rewrite (Hv (Fees u)), (Hv (Fers v)) by (simpl; set_solver). intros [Hex H]. split; [|exact H].
    intros k Hk. rewrite Hv by done. auto.
  - unfold edge_ok. rewrite (Hv (Fees u)), (Hv (Fers v)) by (simpl; set_solver). intros [Hex H]. split; [|exact H].
    intros k Hk. rewrite Hv by done. auto.
Qed.
Lemma right_frame l o o' r : uses o ## uses o' → right (l ++ [o']) o r ↔ right l o r.
Proof.
  intros Hd. destruct (get_key o) as [k|] eqn:Ek.
  - rewrite !(right_get _ _ k) by done. assert (k ∉ uses o') as Hk by (destruct o; simplify_eq/=; set_solver).
    rewrite (touched_frame l o' k), (inserted_frame l o' k), (ideal_frame l o' k) by auto. done.
  - by destruct o.
Qed.
Lemma key_ok_unframe vw l o k : k ∉ uses o → key_ok vw (l ++ [o]) k ↔ key_ok vw l k.
Proof.
  intros Hk. split; [|by apply key_ok_frame]. intros (H1 & H2 & H3 & H4).
  pose proof (ideal_frame l o k ltac:(auto)) as Ei. pose proof (touched_frame l o k ltac:(auto)) as Et.
  pose proof (inserted_frame l o k ltac:(auto)) as En. rewrite Et in H2, H4. rewrite En in H3.
  split; [|split; [|split]]; [|done..]. intros v Hv. rewrite <- Ei, <- Et, <- En. by apply H1.
Qed.
Lemma prog_ok_log o ps vw l o' : uses o ## uses o' → prog_ok o ps vw l → prog_ok o ps vw (l ++ [o']).
Proof.
  intros Hd. destruct o as [u|u|u|u v|u v]; unfold prog_ok.
  - intros [[-> H]|[-> H]]; [left|right]; (split; [done|]); intros k Hk; specialize (H k Hk); [by apply key_ok_frame; set_solver|].
    assert (k ∉ uses o') as Hk' by set_solver. destruct H as (H1 & H2 & H3 & H4).
    pose proof (ideal_frame l o' k ltac:(auto)) as Ei. pose proof (touched_frame l o' k ltac:(auto)) as Et.
    assert (¬ edge (AddUser u)) as Hne by (by intros []).
    pose proof (touched_frame l (AddUser u) k (or_intror Hne)) as Et1. pose proof (ideal_frame l (AddUser u) k (or_intror Hne)) as Ei1.
    pose proof (touched_frame (l ++ [o']) (AddUser u) k (or_intror Hne)) as Et2. pose proof (ideal_frame (l ++ [o']) (AddUser u) k (or_intror Hne)) as Ei2.
    assert (inserted ((l ++ [o']) ++ [AddUser u]) k ↔ inserted (l ++ [AddUser u]) k) as En.
    { unfold inserted. rewrite !elem_of_app, !elem_of_list_singleton. split; [|tauto]. intros [[?|E]|?]; [tauto| |tauto].
      exfalso. apply Hk'. rewrite <- E. destruct k; simpl; set_solver. }
    split; [|split; [|split]].
    + intros v Hv. rewrite Ei2, Et2, Ei, Et, En, <- Et1, <- Ei1. by apply H1.
    + rewrite Et2, Et, <- Et1. done.
    + by rewrite H3, En.
    + rewrite Et2, Et, <- Et1. done.
  - intros [Hk H]. assert (Fers u ∉ uses o') by (simpl in Hd; set_solver). split; [by apply key_ok_frame|].
    destruct H as [->|[[Hn ->]|[(Hn & Hi & ->)|(r & -> & Hr)]]]; [by left|right; by left|right; right; left|right; right; right].
    + split; [done|]. split; [by apply inserted_frame; auto|done].
    + exists r. split; [done|]. by apply right_frame.
  - intros [Hk H]. assert (Fees u ∉ uses o') by (simpl in Hd; set_solver). split; [by apply key_ok_frame|].
    destruct H as [->|[[Hn ->]|[(Hn & Hi & ->)|(r & -> & Hr)]]]; [by left|right; by left|right; right; left|right; right; right].
    + split; [done|]. split; [by apply inserted_frame; auto|done].
    + exists r. split; [done|]. by apply right_frame.
  - unfold edge_ok. rewrite (ideal_frame l o' (Fees u)), (ideal_frame l o' (Fers v)) by (left; simpl in Hd; set_solver).
    intros [Hex H]. split; [|exact H]. intros k Hk. rewrite inserted_frame by (left; set_solver). auto.
  - unfold edge_ok. rewrite (ideal_frame l o' (Fees u)), (ideal_frame l o' (Fers v)) by (left; simpl in Hd; set_solver).
    intros [Hex H]. split; [|exact H]. intros k Hk. rewrite inserted_frame by (left; set_solver). auto.
Qed.

(** ** Histories *)
Definition running (w : world) (t : nat) (o : op) : Prop := ∃ ps, w_calls w !! t = Some (o, Running ps).
Record inv (w : world) (log : list (op * reply)) : Prop := {
  i_run : ∀ t o ps, w_calls w !! t = Some (o, Running ps) → small_op o ∧ prog_ok o ps (view (w_cache w) (w_docs w)) (log.*1);
  i_disj : ∀ t t' o o', t ≠ t' → running w t o → running w t' o' → uses o ## uses o';
  i_quiet : ∀ k, (∀ t o, running w t o → k ∉ uses o) → key_ok (view (w_cache w) (w_docs w) k) (log.*1) k;
  i_right : ∀ l1 o r l2, log = l1 ++ (o, r) :: l2 → right (l1.*1) o r }.
Lemma inv_started : inv started [].
Proof.
  split.
  - intros t o ps H. by destruct t.
  - intros t t' o o' _ [ps H]. by destruct t.
  - intros k _. split; [|split; [|split]].
    + intros v H. simpl in H. by rewrite lookup_empty in H.
    + by intros (o & H%elem_of_nil & _).
    + split; [by intros [? ?]|]. intros H. by apply elem_of_nil in H.
    + intros _ v H. done.
  - intros l1 o r l2 H. by destruct l1.
Qed.
Lemma prog_ok_start o vw l : (∀ k, k ∈ uses o → key_ok (vw k) l k) → prog_ok o (goroutines o) vw l.
Proof.
  intros H. destruct o as [u|u|u|u v|u v].
  - by left.
  - split; [apply H; by left|]. by left.
  - split; [apply H; by left|]. by left.
  - assert (∀ k, k ∈ uses (Follow u v) → match (vw k).1 with Some x => x = ideal l k | None => ideal l k = [] end) as Hg by (intros k Hk; by apply key_ok_got, H).
    split; [intros k Hk; apply (H k Hk)|]. eexists _, _, _. split; [done|]. split; [by left|]. split; [by left|]. left.
    split; [done|]. split; apply Hg; simpl; set_solver.
  - assert (∀ k, k ∈ uses (Unfollow u v) → match (vw k).1 with Some x => x = ideal l k | None => ideal l k = [] end) as Hg by (intros k Hk; by apply key_ok_got, H).
    split; [intros k Hk; apply (H k Hk)|]. eexists _, _, _. split; [done|]. split; [by left|]. split; [by left|]. left.
    split; [done|]. split; apply Hg; simpl; set_solver.
Qed.
Lemma start_runs o : settle (goroutines o) = Running (goroutines o).
Proof. by destruct o. Qed.
Definition fair (w : world) (e : event) : Prop := exclusive w e ∧ works e ∧ small e.
Lemma inv_start w log o : inv w log → exclusive w (Start o) → small (Start o) →
  inv (World (w_cache w) (w_docs w) (w_calls w ++ [(o, settle (goroutines o))])) log.
Proof.
  intros [Hrun Hdisj Hquiet Hright] Hex Hs. rewrite start_runs.
  assert (∀ t o' ps, (w_calls w ++ [(o, Running (goroutines o))]) !! t = Some (o', Running ps) →
    w_calls w !! t = Some (o', Running ps) ∨ t = length (w_calls w) ∧ o' = o ∧ ps = goroutines o) as Hcase.
  { intros t o' ps. rewrite lookup_app_Some, list_lookup_singleton_Some. intros [?|(? & ? & [=])]; [by left|]. right. subst. split; [lia|done]. }
  assert (∀ t o', running w t o' → uses o ## uses o') as Hd.
  { intros t o' [ps H]. apply (Hex o' (Running ps)); [by eapply elem_of_list_lookup_2|done]. }
  split; simpl.
  - intros t o' ps [H|(-> & -> & ->)]%Hcase; [by eapply Hrun|]. split; [intros u Hu; by apply json_small, Hs|].
    apply prog_ok_start. intros k Hk. apply Hquiet. intros t o' Hr Hk'. by apply (Hd _ _ Hr k).
  - intros t t' o1 o2 Ht [p1 H1%Hcase] [p2 H2%Hcase]. destruct H1 as [H1|(-> & -> & _)], H2 as [H2|(-> & -> & _)].
    + by apply (Hdisj t t'); [|eexists|eexists].
    + assert (uses o ## uses o1) by (eapply Hd; by eexists). set_solver.
    + eapply Hd. by eexists.
    + done.
  - intros k Hk. apply Hquiet. intros t o' [ps H]. apply (Hk t). exists ps. simpl. rewrite lookup_app_l; [done|]. by eapply lookup_lt_Some.
  - done.
Qed.
Lemma inv_step w log t g w' : inv w log → step (Step t g Fine) w = Some w' → inv w' (log ++ answered (Step t g Fine) w').
Proof.
  intros [Hrun Hdisj Hquiet Hright] Hstep. simpl in Hstep.
  destruct (w_calls w !! t) as [[o [ps|]]|] eqn:Et; [|done..]. destruct (ps !! g) as [p|] eqn:Eg; [|done].
  destruct (Hrun _ _ _ Et) as [Hsm Hok].
  assert (∀ r, p ≠ Ret r) as Hne by (by intros r ->).
  pose proof (step_ok o ps g p _ _ _ Hsm Hok Eg Hne) as Hp.
  destruct (exec p Fine (w_cache w) (w_docs w)) as [[p' c'] ds'] eqn:Ee. destruct Hp as [Hok' Hfr].
  assert (w' = World c' ds' (<[t := (o, settle (next ps g p'))]> (w_calls w))) as -> by (unfold next; destruct p; by simplify_eq).
  clear Hstep. apply settle_ok in Hok'.
  assert (t < length (w_calls w))%nat as Hlt by (by eapply lookup_lt_Some).
  assert (running w t o) as Hro by (by eexists).
  set (w' := World c' ds' (<[t := (o, settle (next ps g p'))]> (w_calls w))).
  assert (∀ t' o' ps', t' ≠ t → w_calls w' !! t' = Some (o', Running ps') → w_calls w !! t' = Some (o', Running ps')) as Hother.
  { intros t' o' ps' Hn H. simpl in H. by rewrite list_lookup_insert_ne in H. }
  assert (∀ t' o', running w' t' o' → running w t' o') as Hrunning.
  { intros t' o' [ps' H]. destruct (decide (t' = t)) as [->|Hn]; [|eexists; by apply Hother].
    simpl in H. rewrite list_lookup_insert in H by done. by injection H as <- _. }
  assert (∀ t' o', t' ≠ t → running w t' o' → uses o' ## uses o) as Hd by (intros t' o' Hn Hr; by apply (Hdisj t' t)).
  assert (∀ t' o' ps', t' ≠ t → w_calls w !! t' = Some (o', Running ps') →
    small_op o' ∧ prog_ok o' ps' (view c' ds') (log.*1)) as Hrest.
  { intros t' o' ps' Hn H. destruct (Hrun _ _ _ H) as [Hs H']. split; [done|]. eapply prog_ok_frame; [|exact H'].
    intros k Hk. apply Hfr. assert (uses o' ## uses o) by (eapply Hd; [done|]; by eexists). set_solver. }
  cbn [answered]. assert (w_calls w' !! t = Some (o, settle (next ps g p'))) as -> by (by apply list_lookup_insert).
  destruct (settle (next ps g p')) as [ps2|r] eqn:Es; cbn [thread_ok] in Hok'.
  - rewrite app_nil_r. split.
    + intros t' o' ps' H. destruct (decide (t' = t)) as [->|Hn]; [|by apply (Hrest t'); [|apply Hother]].
      simpl in H. rewrite list_lookup_insert in H by done. injection H as <- <-. done.
    + intros t1 t2 o1 o2 Hn H1 H2. apply (Hdisj t1 t2); auto.
    + intros k Hk. assert (k ∉ uses o) as Hko.
      { apply (Hk t). exists ps2. simpl. by rewrite list_lookup_insert. }
      simpl. rewrite Hfr by done. apply Hquiet. intros t' o' [ps' H]. destruct (decide (t' = t)) as [->|Hn]; [by simplify_eq|].
      apply (Hk t'). exists ps'. simpl. by rewrite list_lookup_insert_ne.
    + done.
  - destruct Hok' as [Hr Hks]. split; rewrite ?fmap_app; cbn [fmap list_fmap fst].
    + intros t' o' ps' H. destruct (decide (t' = t)) as [->|Hn].
      { simpl in H. rewrite list_lookup_insert in H by done. done. }
      apply Hother in H; [|done]. destruct (Hrest _ _ _ Hn H) as [Hs H']. split; [done|].
      apply prog_ok_log; [|done]. eapply Hd; [done|]. by eexists.
    + intros t1 t2 o1 o2 Hn H1 H2. apply (Hdisj t1 t2); auto.
    + intros k Hk. destruct (decide (k ∈ uses o)) as [Hko|Hko]; [by apply Hks|].
      apply key_ok_frame; [done|]. simpl. rewrite Hfr by done. apply Hquiet. intros t' o' [ps' H].
      destruct (decide (t' = t)) as [->|Hn]; [by simplify_eq|]. apply (Hk t'). exists ps'. simpl. by rewrite list_lookup_insert_ne.
    + intros l1 o1 r1 l2 E. destruct l2 as [|x l2' _] using rev_ind.
      * apply app_inj_tail in E as [-> [= -> ->]]. done.
      * rewrite app_comm_cons, app_assoc in E. apply app_inj_tail in E as [E _]. by eapply Hright.
Qed.
Lemma inv_history es w log : history fair es w log → inv w log.
Proof.
  induction 1 as [|es e w w' log _ IH (Hex & Hw & Hs) Hstep]; [apply inv_started|]. destruct e as [o|t g f|k].
  - injection Hstep as <-. cbn [answered]. rewrite app_nil_r. by apply inv_start.
  - simpl in Hw. subst f. by apply (inv_step w).
  - done.
Qed.

(** ** The database *)
Definition kstep (k : ckey) : list Z → op → list Z := match k with Fers u => follower_step u | Fees u => followee_step u end.
Definition kstored (l : list op) (k : ckey) : option (list Z) := stored (kstep k) l (ku k).
Definition dview (ds : list udoc) (k : ckey) : option (list Z) := sel k <$> find_doc ds (ku k).
Inductive nodb : prog → Prop :=
  | nd_ret r : nodb (Ret r)
  | nd_get k f : (∀ r, nodb (f r)) → nodb (CGet k f)
  | nd_put k l i p : nodb p → nodb (CPut k l i p)
  | nd_find u f : (∀ r, nodb (f r)) → nodb (DFind u f).
Lemma kstored_snoc l o k : kstored (l ++ [o]) k = match o with
    | AddUser a => if decide (a = ku k) then Some (default [] (kstored l k)) else kstored l k
    | _ => (λ acc, kstep k acc o) <$> kstored l k
    end.
Proof. unfold kstored, stored. by rewrite foldl_app. Qed.
Lemma fmap_same {A} (f : A → A) (x : option A) : (∀ a, f a = a) → f <$> x = x.
Proof. intros H. destruct x; [|done]. simpl. by rewrite H. Qed.
Lemma kstored_frame l o k : k ∉ uses o → kstored (l ++ [o]) k = kstored l k.
Proof.
  intros H. rewrite kstored_snoc. destruct o as [a|a|a|a b|a b].
  - rewrite decide_False; [done|]. intros ->. apply H. destruct k; simpl; set_solver.
  - apply fmap_same. by destruct k.
  - apply fmap_same. by destruct k.
  - apply fmap_same. intros x. destruct k as [u|u]; simpl in *; (rewrite decide_False; [done|]); intros ->; set_solver.
  - apply fmap_same. intros x. destruct k as [u|u]; simpl in *; (rewrite decide_False; [done|]); intros ->; set_solver.
Qed.
Definition edge_db (u v : Z) (f g : list Z → list Z) (d1 d2 : prog) (ps : list prog) (dv : ckey → option (list Z)) (l : list op) : Prop :=
  ∃ p1 p2 p3, ps = [p1; p2; p3] ∧ nodb p3 ∧
  (p1 = d1 ∧ dv (Fees u) = kstored l (Fees u) ∨ (∃ r, p1 = Ret r) ∧ dv (Fees u) = f <$> kstored l (Fees u)) ∧
  (p2 = d2 ∧ dv (Fers v) = kstored l (Fers v) ∨ (∃ r, p2 = Ret r) ∧ dv (Fers v) = g <$> kstored l (Fers v)).
Definition db_ok (o : op) (ps : list prog) (dv : ckey → option (list Z)) (l : list op) : Prop :=
  match o with
  | AddUser u =>
      (ps = insert_user u ∧ ∀ k, k ∈ uses o → dv k = kstored l k) ∨
      ((∃ r, ps = [Ret r]) ∧ ∀ k, k ∈ uses o → dv k = kstored (l ++ [o]) k)
  | GetFers u | GetFees u => Forall nodb ps ∧ ∀ k, k ∈ uses o → dv k = kstored l k
  | Follow u v =>
      edge_db u v (λ l, l ++ [v]) (λ l, l ++ [u])
        (DUpd u (λ d, UDoc (u_id d) (u_fers d) (u_fees d ++ [v])) (Ret Ok))
        (DUpd v (λ d, UDoc (u_id d) (u_fers d ++ [u]) (u_fees d)) (Ret Ok)) ps dv l
  | Unfollow u v =>
      edge_db u v (filter (.≠ v)) (filter (.≠ u))
        (DUpd u (λ d, UDoc (u_id d) (u_fers d) (filter (.≠ v) (u_fees d))) (Ret Ok))
        (DUpd v (λ d, UDoc (u_id d) (filter (.≠ u) (u_fers d)) (u_fees d)) (Ret Ok)) ps dv l
  end.
Lemma nodb_exec p c ds : nodb p → let '(p', _, ds') := exec p Fine c ds in nodb p' ∧ ds' = ds.
Proof. intros H. destruct H; simpl; by auto using nodb. Qed.
Lemma dview_upd ds u g k : (∀ d, u_id (g d) = u_id d) →
  dview (upd_doc ds u g) k = if decide (ku k = u) then (λ d, sel k (g d)) <$> find_doc ds u else dview ds k.
Proof. intros Hg. unfold dview. rewrite find_upd by done. case_decide; [|done]. by rewrite <- option_fmap_compose. Qed.
Lemma edge_db_step u v f g a1 a2 c ds l ps i p :
  (∀ d, u_id (a1 d) = u_id d ∧ u_fers (a1 d) = u_fers d ∧ u_fees (a1 d) = f (u_fees d)) →
  (∀ d, u_id (a2 d) = u_id d ∧ u_fees (a2 d) = u_fees d ∧ u_fers (a2 d) = g (u_fers d)) →
  edge_db u v f g (DUpd u a1 (Ret Ok)) (DUpd v a2 (Ret Ok)) ps (dview ds) l → ps !! i = Some p → (∀ r, p ≠ Ret r) →
  let '(p', c', ds') := exec p Fine c ds in
  edge_db u v f g (DUpd u a1 (Ret Ok)) (DUpd v a2 (Ret Ok)) (next ps i p') (dview ds') l ∧ ∀ k, k ∉ [Fees u; Fers v] → dview ds' k = dview ds k.
Proof.
  intros Ha1 Ha2 (p1 & p2 & p3 & -> & H3 & H1 & H2) Hp Hne.
  assert (∀ x b, (∀ d, u_id (b d) = u_id d) → ∀ k, (ku k = x → ∀ d, sel k (b d) = sel k d) → dview (upd_doc ds x b) k = dview ds k) as Hsame.
  { intros x b Hb k Hk. rewrite dview_upd by done. case_decide as E; [|done]. unfold dview. rewrite E. destruct (find_doc ds x) as [d|]; [|done].
    simpl. by rewrite Hk. }
  assert (∀ d, u_id (a1 d) = u_id d) as I1 by apply Ha1. assert (∀ d, u_id (a2 d) = u_id d) as I2 by apply Ha2.
  destruct i as [|[|[|i]]]; [| | |done]; injection Hp as <-.
  - destruct H1 as [[-> H1]|[[r ->] _]]; [|by destruct (Hne r)]. cbn [exec fine done_by]. split.
    + exists (Ret Ok), p2, p3. split; [done|]. split; [done|]. split.
      * right. split; [by eexists|]. rewrite dview_upd by done. cbn [ku]. rewrite decide_True by done. rewrite <- H1. unfold dview. cbn [ku].
        destruct (find_doc ds u) as [d|]; [|done]. simpl. f_equal. apply Ha1.
      * rewrite Hsame; [done|done|]. intros _ d. apply Ha1.
    + intros k Hk. apply Hsame; [done|]. intros <- d. destruct k; [apply Ha1|]. exfalso. apply Hk. simpl. set_solver.
  - destruct H2 as [[-> H2]|[[r ->] _]]; [|by destruct (Hne r)]. cbn [exec fine done_by]. split.
    + exists p1, (Ret Ok), p3. split; [done|]. split; [done|]. split.
      * rewrite Hsame; [done|done|]. intros _ d. apply Ha2.
      * right. split; [by eexists|]. rewrite dview_upd by done. cbn [ku]. rewrite decide_True by done. rewrite <- H2. unfold dview. cbn [ku].
        destruct (find_doc ds v) as [d|]; [|done]. simpl. f_equal. apply Ha2.
    + intros k Hk. apply Hsame; [done|]. intros <- d. destruct k; [|apply Ha2]. exfalso. apply Hk. simpl. set_solver.
  - pose proof (nodb_exec p3 c ds H3) as He. destruct (exec p3 Fine c ds) as [[p' c'] ds']. destruct He as [He ->]. split; [|done].
    by exists p1, p2, p'.
Qed.
Lemma db_step o ps g p c ds l : db_ok o ps (dview ds) l → ps !! g = Some p → (∀ r, p ≠ Ret r) →
  let '(p', c', ds') := exec p Fine c ds in
  db_ok o (next ps g p') (dview ds') l ∧ ∀ k, k ∉ uses o → dview ds' k = dview ds k.
Proof.
  intros Hok Hp Hne. destruct o as [u|u|u|u v|u v].
  - destruct Hok as [[-> Hk]|[[r ->] Hk]]; (destruct g as [|g]; [|by destruct g]); injection Hp as <-; [|by destruct (Hne r)]. simpl. split.
    + right. split; [by eexists|]. intros k Hin. assert (ku k = u) as Hu by (simpl in Hin; rewrite !elem_of_cons, elem_of_nil in Hin; by destruct Hin as [->|[->|[]]]).
      rewrite kstored_snoc, decide_True by done. rewrite <- Hk by done. unfold dview. rewrite find_app. destruct (find_doc ds (ku k)); [done|].
      simpl. rewrite decide_True by done. by destruct k.
    + intros k Hn. unfold dview. rewrite find_app. destruct (find_doc ds (ku k)); [done|]. simpl. rewrite decide_False; [done|].
      intros ->. apply Hn. destruct k; simpl; set_solver.
  - destruct Hok as [Hnd Hk]. assert (nodb p) as Hp' by (by eapply Forall_lookup_1). pose proof (nodb_exec p c ds Hp') as He.
    destruct (exec p Fine c ds) as [[p' c'] ds']. destruct He as [He ->]. split; [|done]. split; [|done]. by apply Forall_insert.
  - destruct Hok as [Hnd Hk]. assert (nodb p) as Hp' by (by eapply Forall_lookup_1). pose proof (nodb_exec p c ds Hp') as He.
    destruct (exec p Fine c ds) as [[p' c'] ds']. destruct He as [He ->]. split; [|done]. split; [|done]. by apply Forall_insert.
  - eapply edge_db_step; done.
  - eapply edge_db_step; done.
Qed.
Lemma db_settle o ps r dv l : db_ok o ps dv l → settle ps = Done r → ∀ k, k ∈ uses o → dv k = kstored (l ++ [o]) k.
Proof.
  intros H Hs k Hk. rewrite kstored_snoc. destruct o as [u|u|u|u v|u v].
  - destruct H as [[-> _]|[_ H]]; [done|]. rewrite (H k Hk), kstored_snoc. done.
  - destruct H as [_ H]. rewrite (H k Hk). symmetry. apply fmap_same. by destruct k.
  - destruct H as [_ H]. rewrite (H k Hk). symmetry. apply fmap_same. by destruct k.
  - destruct H as (p1 & p2 & p3 & -> & _ & H1 & H2). destruct H1 as [[-> _]|[[r1 ->] H1]]; [done|].
    destruct H2 as [[-> _]|[[r2 ->] H2]]; [by destruct r1|]. simpl in Hk. rewrite !elem_of_cons, elem_of_nil in Hk. destruct Hk as [->|[->|[]]].
    + rewrite H1. destruct (kstored l (Fees u)); [|done]. simpl. by rewrite decide_True.
    + rewrite H2. destruct (kstored l (Fers v)); [|done]. simpl. by rewrite decide_True.
  - destruct H as (p1 & p2 & p3 & -> & _ & H1 & H2). destruct H1 as [[-> _]|[[r1 ->] H1]]; [done|].
    destruct H2 as [[-> _]|[[r2 ->] H2]]; [by destruct r1|]. simpl in Hk. rewrite !elem_of_cons, elem_of_nil in Hk. destruct Hk as [->|[->|[]]].
    + rewrite H1. destruct (kstored l (Fees u)); [|done]. simpl. by rewrite decide_True.
    + rewrite H2. destruct (kstored l (Fers v)); [|done]. simpl. by rewrite decide_True.
Qed.
Lemma db_frame o ps dv dv' l l' : (∀ k, k ∈ uses o → dv' k = dv k) →
  (∀ k, k ∈ uses o → kstored l' k = kstored l k) → db_ok o ps dv l → db_ok o ps dv' l'.
Proof.
  intros Hv Hl. destruct o as [u|u|u|u v|u v]; unfold db_ok.
  - intros [[-> H]|[H' H]]; [left; split; [done|]|right; split; [done|]]; intros k Hk; rewrite Hv, H by done; [by rewrite Hl|].
    rewrite !kstored_snoc. by rewrite Hl.
  - intros [H' H]. split; [done|]. intros k Hk. by rewrite Hv, Hl, H.
  - intros [H' H]. split; [done|]. intros k Hk. by rewrite Hv, Hl, H.
  - unfold edge_db. rewrite (Hv (Fees u)), (Hv (Fers v)), (Hl (Fees u)), (Hl (Fers v)) by (simpl; set_solver). done.
  - unfold edge_db. rewrite (Hv (Fees u)), (Hv (Fers v)), (Hl (Fees u)), (Hl (Fers v)) by (simpl; set_solver). done.
Qed.
Lemma db_start o dv l : small_op o → (∀ k, k ∈ uses o → dv k = kstored l k) → db_ok o (goroutines o) dv l.
Proof.
  intros Hs Hk. destruct o as [u|u|u|u v|u v].
  - by left.
  - split; [|done]. constructor; [|done]. constructor. intros []; constructor. intros []; repeat constructor.
  - split; [|done]. constructor; [|done]. constructor. intros []; constructor. intros []; repeat constructor.
  - assert (json_num u = u) as Hu by (apply Hs; by left). assert (json_num v = v) as Hv by (apply Hs; right; by left).
    cbn [goroutines]. unfold follow. rewrite Hu, Hv. do 3 eexists. split; [done|]. split; [repeat constructor|].
    split; left; (split; [done|]); apply Hk; simpl; set_solver.
  - assert (json_num u = u) as Hu by (apply Hs; by left). assert (json_num v = v) as Hv by (apply Hs; right; by left).
    cbn [goroutines]. unfold unfollow. rewrite Hu, Hv. do 3 eexists. split; [done|]. split; [repeat constructor|].
    split; left; (split; [done|]); apply Hk; simpl; set_solver.
Qed.
Record dinv (w : world) (log : list (op * reply)) : Prop := {
  d_run : ∀ t o ps, w_calls w !! t = Some (o, Running ps) → db_ok o ps (dview (w_docs w)) (log.*1);
  d_quiet : ∀ k, (∀ t o, running w t o → k ∉ uses o) → dview (w_docs w) k = kstored (log.*1) k }.
Lemma dinv_step w log t g w' : inv w log → dinv w log → step (Step t g Fine) w = Some w' → dinv w' (log ++ answered (Step t g Fine) w').
Proof.
  intros [_ Hdisj _ _] [Hrun Hquiet] Hstep. simpl in Hstep.
  destruct (w_calls w !! t) as [[o [ps|]]|] eqn:Et; [|done..]. destruct (ps !! g) as [p|] eqn:Eg; [|done].
  pose proof (Hrun _ _ _ Et) as Hok. assert (∀ r, p ≠ Ret r) as Hne by (by intros r ->).
  pose proof (db_step o ps g p (w_cache w) _ _ Hok Eg Hne) as Hp.
  destruct (exec p Fine (w_cache w) (w_docs w)) as [[p' c'] ds'] eqn:Ee. destruct Hp as [Hok' Hfr].
  assert (w' = World c' ds' (<[t := (o, settle (next ps g p'))]> (w_calls w))) as -> by (unfold next; destruct p; by simplify_eq).
  clear Hstep. assert (t < length (w_calls w))%nat as Hlt by (by eapply lookup_lt_Some).
  assert (running w t o) as Hro by (by eexists).
  assert (∀ t' o', t' ≠ t → running w t' o' → uses o' ## uses o) as Hd by (intros t' o' Hn Hr; by apply (Hdisj t' t)).
  cbn [answered w_calls]. rewrite list_lookup_insert by done.
  destruct (settle (next ps g p')) as [ps2|r] eqn:Es.
  - assert (ps2 = next ps g p') as -> by (unfold settle in Es; by destruct (outcome _); simplify_eq). rewrite app_nil_r. split; simpl.
    + intros t' o' ps' H. destruct (decide (t' = t)) as [->|Hn].
      { rewrite list_lookup_insert in H by done. by injection H as <- <-. }
      rewrite list_lookup_insert_ne in H by done. eapply db_frame; [|done|by eapply Hrun].
      intros k Hk. apply Hfr. assert (uses o' ## uses o) by (eapply Hd; [done|]; by eexists). set_solver.
    + intros k Hk. rewrite Hfr.
      * apply Hquiet. intros t' o' [ps' H]. destruct (decide (t' = t)) as [->|Hn].
        { simplify_eq. apply (Hk t). eexists. simpl. by rewrite list_lookup_insert. }
        apply (Hk t'). exists ps'. simpl. by rewrite list_lookup_insert_ne.
      * apply (Hk t). eexists. simpl. by rewrite list_lookup_insert.
  - split; rewrite fmap_app; cbn [fmap list_fmap fst w_calls w_docs].
    + intros t' o' ps' H. destruct (decide (t' = t)) as [->|Hn]; [by rewrite list_lookup_insert in H|].
      rewrite list_lookup_insert_ne in H by done. assert (uses o' ## uses o) as Hdd by (eapply Hd; [done|]; by eexists).
      eapply db_frame; [| |by eapply Hrun]; [|intros k Hk; apply kstored_frame; set_solver].
      intros k Hk. apply Hfr. set_solver.
    + intros k Hk. destruct (decide (k ∈ uses o)) as [Hko|Hko]; [by eapply db_settle|].
      rewrite kstored_frame, Hfr by done. apply Hquiet. intros t' o' [ps' H].
      destruct (decide (t' = t)) as [->|Hn]; [by simplify_eq|]. apply (Hk t'). exists ps'. simpl. by rewrite list_lookup_insert_ne.
Qed.
Lemma dinv_history es w log : history fair es w log → dinv w log.
Proof.
  induction 1 as [|es e w w' log Hh IH (Hex & Hw & Hs) Hstep]; [split; [intros t o ps H; by destruct t|by intros []]|]. destruct e as [o|t g f|k].
  - injection Hstep as <-. cbn [answered]. rewrite app_nil_r. destruct IH as [Hrun Hquiet]. rewrite start_runs.
    assert (∀ t o', running w t o' → uses o ## uses o') as Hd.
    { intros t o' [ps H]. apply (Hex o' (Running ps)); [by eapply elem_of_list_lookup_2|done]. }
    split; simpl.
    + intros t o' ps. rewrite lookup_app_Some, list_lookup_singleton_Some. intros [?|(? & ? & [= <- <-])]; [by eapply Hrun|].
      apply db_start; [intros u Hu; by apply json_small, Hs|]. intros k Hk. apply Hquiet. intros t' o' Hr Hk'. by apply (Hd _ _ Hr k).
    + intros k Hk. apply Hquiet. intros t o' [ps H]. apply (Hk t). exists ps. simpl. rewrite lookup_app_l; [done|]. by eapply lookup_lt_Some.
  - simpl in Hw. subst f. apply (dinv_step w); [by eapply inv_history|done|done].
  - done.
Qed.

(** ** Running concrete histories *)
Fixpoint go (es : list event) (b : world → event → bool) (w : world) : option (world * list (op * reply)) :=
  match es with
  | [] => Some (w, [])
  | e :: es =>
      if b w e then
        match step e w with
        | Some w' => match go es b w' with Some (v, l) => Some (v, answered e w' ++ l) | None => None end
        | None => None
        end
      else None
  end.
Lemma go_history (P : world → event → Prop) b es es0 w0 l0 v l : (∀ w e, b w e = true → P w e) →
  history P es0 w0 l0 → go es b w0 = Some (v, l) → history P (es0 ++ es) v (l0 ++ l).
Proof.
  intros Hb. revert es0 w0 l0 l. induction es as [|e es IH]; intros es0 w0 l0 l H0 Hg; simpl in Hg.
  - injection Hg as <- <-. by rewrite !app_nil_r.
  - destruct (b w0 e) eqn:Eb; [|done]. destruct (step e w0) as [w'|] eqn:Es; [|done]. destruct (go es b w') as [[v' l']|] eqn:Eg; [|done].
    injection Hg as <- <-. rewrite (cons_middle e), !app_assoc. eapply IH; [|done]. by apply h_snoc with w0; [|apply Hb|].
Qed.
Lemma go_log (P : world → event → Prop) b es log : (∀ w e, b w e = true → P w e) → snd <$> go es b started = Some log → ∃ w, history P es w log.
Proof.
  intros Hb H. destruct (go es b started) as [[v l]|] eqn:E; [|done]. injection H as <-. exists v.
  by apply (go_history P b es [] started [] v l Hb (h_nil P)).
Qed.
Lemma go_log_call (P : world → event → Prop) b es log t s : (∀ w e, b w e = true → P w e) →
  (λ v, (v.2, snd <$> w_calls v.1 !! t)) <$> go es b started = Some (log, Some s) → ∃ w, history P es w log ∧ snd <$> w_calls w !! t = Some s.
Proof.
  intros Hb H. destruct (go es b started) as [[v l]|] eqn:E; [|done]. injection H as <- ?. exists v. split; [|done].
  by apply (go_history P b es [] started [] v l Hb (h_nil P)).
Qed.
Definition idle (w : world) (e : event) : bool :=
  match e with Start _ => forallb (λ c, match c.2 with Done _ => true | _ => false end) (w_calls w) | _ => true end.
Lemma idle_exclusive w e : idle w e = true → exclusive w e.
Proof.
  destruct e; [|done..]. simpl. intros H o' s Hin Hr. rewrite forallb_forall in H. specialize (H (o', s) ltac:(by apply elem_of_list_In)).
  by destruct s.
Qed.
Definition worksb (e : event) : bool := match e with Step _ _ Fine | Start _ => true | _ => false end.
Lemma worksb_works e : worksb e = true → works e.
Proof. by destruct e as [|? ? []|]. Qed.
Definition smallb (e : event) : bool := match e with Start o => forallb (λ u, Z.abs u <=? 2 ^ 53) (users o) | _ => true end.
Lemma smallb_small e : smallb e = true → small e.
Proof.
  destruct e; [|done..]. simpl. intros H u Hu. rewrite forallb_forall in H. specialize (H u ltac:(by apply elem_of_list_In)). by apply Z.leb_le.
Qed.

(** ** Successful calls in histories with failures *)
Inductive reach (p0 : prog) : list fate → prog → Prop :=
  | r_nil : reach p0 [] p0
  | r_snoc fs f p c ds : reach p0 fs p → (∀ r, p ≠ Ret r) → reach p0 (fs ++ [f]) (exec p f c ds).1.1.
Definition reaches (o : op) (t : nat) (es : list event) (ps : list prog) : Prop :=
  length ps = length (goroutines o) ∧ ∀ g p0, goroutines o !! g = Some p0 → ∃ p, ps !! g = Some p ∧ reach p0 (fates t g es) p.
Definition traced (es : list event) (w : world) : Prop :=
  (∀ t g, length (w_calls w) ≤ t → fates t g es = [])%nat ∧
  ∀ t o s, w_calls w !! t = Some (o, s) → ∃ ps, reaches o t es ps ∧ s = settle ps.
Lemma fates_snoc t g es e : fates t g (es ++ [e]) =
  fates t g es ++ match e with Step t' g' f => if decide (t' = t ∧ g' = g) then [f] else [] | _ => [] end.
Proof. unfold fates. rewrite omap_app. f_equal. destruct e; simpl; [done| |done]. by case_decide. Qed.
Lemma settle_running ps ps' : Running ps = settle ps' → ps' = ps.
Proof. unfold settle. destruct (outcome ps'); congruence. Qed.
Lemma traced_history P es w log : history P es w log → traced es w.
Proof.
  induction 1 as [|es e w w' log H [IH1 IH2] _ Hs]; [by split|].
  destruct e as [o|t g f|k]; simpl in Hs.
  - injection Hs as <-. split; simpl.
    + intros t g. rewrite app_length. simpl. intros Ht. rewrite fates_snoc, app_nil_r. apply IH1. lia.
    + intros t o' s. rewrite lookup_app_Some. intros [Ht|[Hlt Ht]].
      * destruct (IH2 _ _ _ Ht) as (ps & [Hl Hr] & ->). exists ps. split; [|done]. split; [done|].
        intros g p0 Hg. rewrite fates_snoc, app_nil_r. by apply Hr.
      * apply list_lookup_singleton_Some in Ht as [Hz [= <- <-]]. exists (goroutines o). split; [|done]. split; [done|].
        intros g p0 Hg. exists p0. split; [done|]. rewrite fates_snoc, app_nil_r, IH1 by lia. constructor.
  - destruct (w_calls w !! t) as [[o [ps|r]]|] eqn:Ht; [|done..]. destruct (ps !! g) as [p|] eqn:Hg; [|done].
    assert (∀ r, p ≠ Ret r) as Hnr by (intros r ->; done).
    assert (∃ p' c ds, exec p f (w_cache w) (w_docs w) = (p', c, ds) ∧ w' = World c ds (<[t:=(o, settle (<[g:=p']> ps))]> (w_calls w))) as (p' & c & ds & He & ->).
    { destruct p; [done|..]; destruct (exec _ f (w_cache w) (w_docs w)) as [[p' c] ds]; injection Hs as <-; eauto. }
    clear Hs. assert (t < length (w_calls w))%nat as Hlt by (by eapply lookup_lt_Some). split; simpl.
    + intros t' g'. rewrite insert_length. intros Hle. rewrite fates_snoc, decide_False by lia. rewrite app_nil_r. by apply IH1.
    + intros t' o' s. rewrite list_lookup_insert_Some. intros [(<- & [= <- <-] & _)|[Hne Ht']].
      * destruct (IH2 _ _ _ Ht) as (ps' & [Hl Hr] & Hps). apply settle_running in Hps as ->.
        exists (<[g:=p']> ps). split; [|done]. split; [by rewrite insert_length|].
        intros g' p0 Hg'. destruct (Hr _ _ Hg') as (q & Hq & Hre). rewrite fates_snoc. destruct (decide (g' = g)) as [->|Hne].
        -- rewrite decide_True by done. exists p'. rewrite list_lookup_insert by (by eapply lookup_lt_Some). split; [done|].
           assert (q = p) as -> by congruence. assert (p' = (exec p f (w_cache w) (w_docs w)).1.1) as -> by (by rewrite He). by constructor.
        -- rewrite decide_False by naive_solver. rewrite app_nil_r, list_lookup_insert_ne by done. by exists q.
      * destruct (IH2 _ _ _ Ht') as (ps' & [Hl Hr] & Hps). exists ps'. split; [|done]. split; [done|].
        intros g' p0 Hg'. rewrite fates_snoc, decide_False by naive_solver. rewrite app_nil_r. by apply Hr.
  - injection Hs as <-. split; simpl.
    + intros t g Ht. rewrite fates_snoc, app_nil_r. by apply IH1.
    + intros t o s Ht. destruct (IH2 _ _ _ Ht) as (ps & [Hl Hr] & ->). exists ps. split; [|done]. split; [done|].
      intros g p0 Hg. rewrite fates_snoc, app_nil_r. by apply Hr.
Qed.
(** [reach] from the front *)
Lemma reach_cons p0 fs p : reach p0 fs p →
  (fs = [] ∧ p = p0) ∨ ∃ f fs' c ds, fs = f :: fs' ∧ (∀ r, p0 ≠ Ret r) ∧ reach (exec p0 f c ds).1.1 fs' p.
Proof.
  induction 1 as [|fs f p c ds H IH Hn]; [by left|]. right. destruct IH as [[-> ->]|(f0 & fs' & c0 & ds0 & -> & Hn0 & Hr)].
  - exists f, [], c, ds. split; [done|]. split; [done|]. constructor.
  - exists f0, (fs' ++ [f]), c0, ds0. split; [done|]. split; [done|]. by constructor.
Qed.
Lemma reach_ret r fs p : reach (Ret r) fs p → fs = [] ∧ p = Ret r.
Proof. intros [[-> ->]|(f & fs' & c & ds & -> & Hn & _)]%reach_cons; [done|]. by destruct (Hn r). Qed.
Lemma outcome_ok ps : outcome ps = Some Ok → ∀ p, p ∈ ps → p = Ret Ok.
Proof.
  induction ps as [|q ps IH]; [by intros _ p ?%elem_of_nil|]. simpl. intros H p Hp. apply elem_of_cons in Hp as [->|Hp].
  - destruct q as [[| |]| | | | |]; try done. 1,2: by destruct (outcome ps).
  - destruct q as [[| |]| | | | |]; try done; [by apply IH|..]; by destruct (outcome ps).
Qed.
Lemma reach_update u v f g fs : reach (update_cache u v f g) fs (Ret Ok) → ∃ f1 f2, fs = [f1; f2; Fine; Fine].
Proof.
  intros [[_ ?]|(f1 & fs1 & c1 & ds1 & -> & _ & H)]%reach_cons; [done|].
  apply reach_cons in H as [[_ ?]|(f2 & fs2 & c2 & ds2 & -> & _ & H)]; [done|].
  apply reach_cons in H as [[_ ?]|(f3 & fs3 & c3 & ds3 & -> & _ & H)]; [done|].
  destruct f3; simpl in H; [|by apply reach_ret in H as [_ ?]..].
  apply reach_cons in H as [[_ ?]|(f4 & fs4 & c4 & ds4 & -> & _ & H)]; [done|].
  destruct f4; simpl in H; [|by apply reach_ret in H as [_ ?]..]. apply reach_ret in H as [-> _]. eauto.
Qed.
Lemma reach_upd u g fs : reach (DUpd u g (Ret Ok)) fs (Ret Ok) → fs = [Fine].
Proof.
  intros [[_ ?]|(f1 & fs1 & c1 & ds1 & -> & _ & H)]%reach_cons; [done|].
  destruct f1; simpl in H; apply reach_ret in H as [-> ?]; done.
Qed.
Lemma reach_ins d fs : reach (DIns d (Ret Ok)) fs (Ret Ok) → fs = [Fine].
Proof.
  intros [[_ ?]|(f1 & fs1 & c1 & ds1 & -> & _ & H)]%reach_cons; [done|].
  destruct f1; simpl in H; apply reach_ret in H as [-> ?]; done.
Qed.
Lemma reach_get k s u fs l : reach (get_list k s u) fs (Ret (Ids l)) → fs = [Fine] ∨ ∃ f, fs = [Fine; Fine; f].
Proof.
  intros [[_ ?]|(f1 & fs1 & c1 & ds1 & -> & _ & H)]%reach_cons; [done|].
  destruct f1; simpl in H; [|by apply reach_ret in H as [_ ?]..].
  destruct (c1 !! k); simpl in H; [by apply reach_ret in H as [-> _]; left|]. right.
  apply reach_cons in H as [[_ ?]|(f2 & fs2 & c2 & ds2 & -> & _ & H)]; [done|].
  destruct f2; simpl in H; [|by apply reach_ret in H as [_ ?]..].
  destruct (find_doc _ _); simpl in H; [|by apply reach_ret in H as [_ ?]].
  apply reach_cons in H as [[_ ?]|(f3 & fs3 & c3 & ds3 & -> & _ & H)]; [done|].
  simpl in H. rewrite orb_true_r in H. apply reach_ret in H as [-> _]. eauto.
Qed.
Lemma reach_get_ok k s u fs : ¬ reach (get_list k s u) fs (Ret Ok).
Proof.
  intros [[_ ?]|(f1 & fs1 & c1 & ds1 & -> & _ & H)]%reach_cons; [done|].
  destruct f1; simpl in H; [|by apply reach_ret in H as [_ ?]..].
  destruct (c1 !! k); simpl in H; [by apply reach_ret in H as [_ ?]|].
  apply reach_cons in H as [[_ ?]|(f2 & fs2 & c2 & ds2 & -> & _ & H)]; [done|].
  destruct f2; simpl in H; [|by apply reach_ret in H as [_ ?]..].
  destruct (find_doc _ _); simpl in H; [|by apply reach_ret in H as [_ ?]].
  apply reach_cons in H as [[_ ?]|(f3 & fs3 & c3 & ds3 & -> & _ & H)]; [done|].
  simpl in H. rewrite orb_true_r in H. by apply reach_ret in H as [_ ?].
Qed.
Lemma outcome_ids ps l : outcome ps = Some (Ids l) → ∃ g, ps !! g = Some (Ret (Ids l)).
Proof.
  induction ps as [|q ps IH]; [done|]. simpl. intros H.
  destruct q as [[| |]| | | | |]; try done.
  - destruct (IH H) as [g ?]. by exists (S g).
  - destruct (outcome ps); [|done]. injection H as <-. by exists 0%nat.
  - by destruct (outcome ps).
Qed.
(** A program that never answers with a list *)
Inductive listless : prog → Prop :=
  | ll_ret r : (∀ l, r ≠ Ids l) → listless (Ret r)
  | ll_get k f : (∀ r, listless (f r)) → listless (CGet k f)
  | ll_put k l b p : listless p → listless (CPut k l b p)
  | ll_upd u g p : listless p → listless (DUpd u g p)
  | ll_ins d p : listless p → listless (DIns d p).
Lemma reach_listless p0 fs p : listless p0 → reach p0 fs p → listless p.
Proof.
  intros H. induction 1 as [|fs f p c ds _ IH Hn]; [done|]. 
  assert (listless (Ret Failed)) by by constructor.
  inversion IH; subst; simpl; try done; by repeat case_match.
Qed.
Lemma reach_ids_not p0 fs l : listless p0 → ¬ reach p0 fs (Ret (Ids l)).
Proof. intros H Hr. apply (reach_listless _ _ _ H) in Hr. inversion Hr as [r Hn| | | |]; subst. by apply (Hn l). Qed.
Lemma listless_update u v f g : listless (update_cache u v f g).
Proof. repeat (constructor; intros); done. Qed.
