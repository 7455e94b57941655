(** * Proofs about NoSQL collections *)
From Coq Require Import Lia.
From Verif Require Import Coll_Spec Filter_Proof Update_Proof.

Section Proofs.
Context (E : env) (U : uenv) (C : cenv).

Definition goodd (f : qfilter) (P : doc → Prop) : Prop := ∀ d, ∃ b, fapply E f (VDoc d) = Some b ∧ (b = true ↔ P d).

Lemma parse_qs qs : Forall (wf_query E) qs → ∃ f, parse_filter E (map query_bson qs) = Some f ∧ goodd f (holds E qs).
Proof. intros H. destruct (parse_filter_good E qs H) as (f & Hf & Hg). exists f. split; [done|]. intros d. apply Hg. Qed.

Lemma has_id_spec d : has_id d = true ↔ "_id"%string ∈ keys d.
Proof.
  unfold has_id. rewrite existsb_exists. unfold keys. rewrite elem_of_list_fmap. split.
  - intros (e & He & Hb%bool_decide_eq_true). exists e. split; [done|]. by apply elem_of_list_In.
  - intros (e & He & Hin). exists e. split; [by apply elem_of_list_In|]. by apply bool_decide_eq_true.
Qed.
Lemma insert_one_spec s a s' e : insert_one C s a = (s', e) → inserts C s [a] s' e.
Proof.
  unfold insert_one. fold (encoded a). destruct (encoded a) as [d|] eqn:Ha; [|intros [= <- <-]; by constructor].
  destruct (has_id d) eqn:Hid; intros [= <- <-]; (eapply inserts_one; [done| |constructor]).
  - left. by apply has_id_spec in Hid.
  - right. rewrite <- has_id_spec, Hid. done.
Qed.
Lemma insert_many_spec l : ∀ s s' e, insert_many C s l = (s', e) → inserts C s l s' e.
Proof.
  induction l as [|a l IH]; intros s s' e; simpl; [intros [= <- <-]; constructor|].
  destruct (insert_one C s a) as [s1 e1] eqn:H1. apply insert_one_spec in H1. destruct e1.
  - intros [= <- <-]. inversion H1; subst; [by constructor|]. match goal with H : inserts _ _ [] _ _ |- _ => inversion H end.
  - intros H. inversion H1; subst. match goal with H : inserts _ _ [] _ _ |- _ => inversion H; subst end.
    eapply inserts_one; eauto.
Qed.

Lemma first_match_spec f P l : goodd f P →
  (first_match E f l = Some None ∧ none P l) ∨
  (∃ i l1 d l2, first_match E f l = Some (Some i) ∧ first P l l1 d l2 ∧ i = length l1).
Proof.
  intros Hf. induction l as [|d l IH]; simpl; [left; split; [done|]; by intros x ?%elem_of_nil|].
  destruct (Hf d) as (b & Hb & HP). rewrite Hb. destruct b.
  - right. exists 0, [], d, l. split; [done|]. split; [|done]. split; [done|]. split; [by intros x ?%elem_of_nil|by apply HP].
  - assert (¬ P d) as Hnd by (rewrite <- HP; done). destruct IH as [[-> Hn]|(i & l1 & d' & l2 & -> & (-> & Hl1 & Hd') & ->)].
    + left. split; [done|]. intros x [->|Hx]%elem_of_cons; auto.
    + right. exists (S (length l1)), (d :: l1), d', l2. split; [done|]. split; [|done]. split; [done|]. split; [|done].
      intros x [->|Hx]%elem_of_cons; auto.
Qed.
Lemma all_matches_spec f P l : goodd f P → ∃ r, all_matches E f l = Some r ∧ chosen P l r.
Proof.
  intros Hf. induction l as [|d l (r & IH & Hr)]; simpl; [eexists; split; [done|constructor]|].
  destruct (Hf d) as (b & Hb & HP). rewrite Hb, IH. eexists. split; [done|]. destruct b.
  - constructor; [by apply HP|done].
  - constructor; [|done]. rewrite <- HP. done.
Qed.

Lemma slice_snoc {A} (l : list A) b i x : b ≤ i → l !! i = Some x → slice l b (S i) = slice l b i ++ [x].
Proof.
  intros Hb Hx. unfold slice. erewrite take_S_r by done. rewrite drop_app_le; [done|]. rewrite take_length.
  apply lookup_lt_Some in Hx. lia.
Qed.
Lemma slice_nil {A} (l : list A) i : slice l i i = [].
Proof. unfold slice. apply drop_ge. rewrite take_length. lia. Qed.
Lemma chosen_snoc_out P l r x : chosen P l r → ¬ P x → chosen P (l ++ [x]) r.
Proof. intros H Hx. induction H; simpl; constructor; auto. constructor. Qed.
Lemma chosen_snoc_in P l r x : chosen P l r → P x → chosen P (l ++ [x]) (r ++ [x]).
Proof. intros H Hx. induction H; simpl; constructor; auto. constructor. Qed.

Lemma delete_loop_spec f P all : goodd f P → ∀ l i begin new,
  all = take i all ++ l → i ≤ length all → begin ≤ i →
  chosen (λ d, ¬ P d) (take i all) (new ++ slice all begin i) →
  ∃ r, delete_loop E f all l i begin new = Some r ∧ chosen (λ d, ¬ P d) all r.
Proof.
  intros Hf l. induction l as [|d l IH]; intros i begin new Hall Hi Hb Hc; simpl.
  - rewrite app_nil_r in Hall. assert (i = length all) as -> by (apply (f_equal length) in Hall; rewrite take_length in Hall; lia).
    eexists. split; [done|]. rewrite <- Hall in Hc. case_bool_decide; [done|].
    assert (begin = length all) as -> by lia. rewrite slice_nil, app_nil_r in Hc. done.
  - assert (all !! i = Some d) as Hd.
    { rewrite Hall. rewrite lookup_app_r by (rewrite take_length; lia). rewrite take_length, Nat.min_l, Nat.sub_diag by lia. done. }
    pose proof (lookup_lt_Some _ _ _ Hd) as Hlt.
    assert (take (S i) all = take i all ++ [d]) as Htake by (by apply take_S_r).
    destruct (Hf d) as (b & Hdb & HP). rewrite Hdb.
    assert (all = take (S i) all ++ l) as Hall' by (rewrite Htake, <- (assoc_L (++)); done).
    destruct b.
    + apply IH; [done|lia|lia|]. rewrite slice_nil, app_nil_r. rewrite Htake. apply chosen_snoc_out; [|rewrite <- HP; tauto].
      case_bool_decide; [done|]. assert (begin = i) as -> by lia. rewrite slice_nil, app_nil_r in Hc. done.
    + apply IH; [done|lia|lia|]. rewrite (slice_snoc _ _ _ d) by (done || lia). rewrite Htake, (assoc_L (++)).
      apply chosen_snoc_in; [done|]. rewrite <- HP. done.
Qed.

(** Parsing several updates. *)
Definition root_op (u : update) : Prop :=
  match u with UField _ _ _ | UIndex _ _ _ | UUnsetField _ | UUnsetElement _ => True | _ => False end.
Lemma root_op_doc u d : root_op u → ∃ d' o, uapply E U u (VDoc d) = (VDoc d', o).
Proof.
  destruct u; simpl; try done; intros _; eauto.
  destruct (field k d) as [x|]; [destruct (uapply E U u x); eauto|].
  destruct create; [|eauto]. destruct (uapply E U u VNil) as [? []]; eauto.
Qed.
Lemma update_path_root ss u : ss ≠ [] → root_op (update_path true ss u).
Proof. destruct ss as [|s ss]; [done|]. intros _. simpl. by destruct (atoi s). Qed.
Lemma unset_path_root ss : ss ≠ [] → root_op (unset_path true ss).
Proof. destruct ss as [|s [|s' ss]]; [done| |]; intros _; simpl; by destruct (atoi s). Qed.
Lemma parse_upd_root u : wf_upd E U u → ∃ o, parse_update E U [upd_bson u] = Some [o] ∧ root_op o.
Proof.
  intros Hw. pose proof Hw as (Hne & Hp & _). assert ((∃ p v, u = PUnset p v) ∨ ¬ is_unset u) as [(p & v & ->)|Hn];
    [destruct u; simpl; eauto| |destruct (parse_upd E U u Hw Hn) as (o & Ho & _)].
  - exists (unset_path true (map seg_string p)). split; [by apply parse_unset|]. apply unset_path_root. by destruct p.
  - eexists. split; [done|]. apply update_path_root. by destruct (path_of u).
Qed.
Lemma parse_update_cons e d us us' : parse_update E U [e] = Some us → parse_update E U d = Some us' →
  parse_update E U (e :: d) = Some (us ++ us').
Proof.
  destruct e as [k v]. cbn [parse_update]. destruct (known_op k); [|done]. destruct v; try done.
  destruct (mapM _ d0); [|done]. intros [= <-] ->. by rewrite app_nil_r.
Qed.
Lemma parse_upds us : Forall (wf_upd E U) us → ∃ os, parse_update E U (map upd_bson us) = Some os ∧ Forall root_op os.
Proof.
  induction 1 as [|u us Hu Hus (os & Hos & Hr)]; [exists []; split; [done|constructor]|].
  destruct (parse_upd_root u Hu) as (o & Ho & Hor). exists ([o] ++ os). split; [|by constructor].
  cbn [map]. by apply parse_update_cons.
Qed.
Lemma apply_all_root os : Forall root_op os → ∀ d, ∃ d' o, apply_all E U os (VDoc d) = (VDoc d', o).
Proof.
  induction 1 as [|u os Hu Hos IH]; intros d; simpl; [eauto|]. destruct (root_op_doc u d Hu) as (d' & o & ->). destruct o; eauto.
Qed.
Lemma update_doc_spec us os d : parse_update E U (map upd_bson us) = Some os → Forall root_op os →
  ∀ d' o, update_doc E U os d = (d', o) → updated E U us d d' o.
Proof.
  intros Hos Hr d' o. unfold update_doc, updated, run_update. rewrite Hos.
  destruct (apply_all_root os Hr d) as (d1 & o1 & ->). by intros [= <- <-].
Qed.

Lemma update_loop_spec f P us os l : goodd f P → parse_update E U (map upd_bson us) = Some os → Forall root_op os →
  ∀ l' n o, update_loop E U f os l = (l', n, o) → updates P (updated E U us) l l' n o.
Proof.
  intros Hf Hos Hr. induction l as [|d l IH]; intros l' n o; simpl; [intros [= <- <- <-]; constructor|].
  destruct (Hf d) as (b & Hb & HP). rewrite Hb. destruct b.
  - destruct (update_doc E U os d) as [d1 o1] eqn:Hu. pose proof (update_doc_spec _ _ _ Hos Hr _ _ Hu) as Hd.
    destruct o1.
    + destruct (update_loop E U f os l) as [[l1 n1] o2]. intros [= <- <- <-]. constructor; auto. by apply HP.
    + intros [= <- <- <-]. apply upd_stop; auto. by apply HP.
    + intros [= <- <- <-]. apply upd_stop; auto. by apply HP.
  - destruct (update_loop E U f os l) as [[l1 n1] o2]. intros [= <- <- <-]. constructor; auto. rewrite <- HP. done.
Qed.
Lemma replace_loop_spec f P : goodd f P → ∀ l rs l' n o, replace_loop E C f l rs = (l', n, o) →
  ∃ e, replaces C P rs l l' n e ∧ ended n o = Some (Count n, e).
Proof.
  intros Hf. induction l as [|d l IH]; intros rs l' n o; destruct rs as [|a rs]; cbn [replace_loop].
  - intros [= <- <- <-]. eexists. split; [constructor|done].
  - intros [= <- <- <-]. eexists. split; [constructor|done].
  - intros [= <- <- <-]. eexists. split; [constructor|done].
  - destruct (Hf d) as (b & Hb & HP). rewrite Hb. destruct b.
    + destruct (to_bson C a) as [d'|] eqn:Ha.
      * destruct (replace_loop E C f l rs) as [[l1 n1] o1] eqn:Hl. intros [= <- <- <-].
        destruct (IH _ _ _ _ Hl) as (e & He & Hend). exists e. split; [apply rep_hit; auto; by apply HP|].
        by destruct o1; simplify_eq/=.
      * intros [= <- <- <-]. exists true. split; [|done]. apply rep_stop; auto. by apply HP.
    + destruct (replace_loop E C f l (a :: rs)) as [[l1 n1] o1] eqn:Hl. intros [= <- <- <-].
      destruct (IH _ _ _ _ Hl) as (e & He & Hend). exists e. split; [|done]. apply rep_skip; auto. rewrite <- HP. done.
Qed.

Lemma insert_mid {A} (l1 l2 : list A) x y : <[length l1 := y]> (l1 ++ x :: l2) = l1 ++ y :: l2.
Proof. rewrite insert_app_r_alt by lia. by rewrite Nat.sub_diag. Qed.

Lemma replace_one_spec s qs a s' r : Forall (wf_query E) qs → replace_one E C s (map query_bson qs) a = (s', r) →
  (none (holds E qs) (items s) ∧ s' = s ∧ r = Some (0, false)) ∨
  ids_used s' = ids_used s ∧ ∃ l1 d l2, first (holds E qs) (items s) l1 d l2 ∧
    ((∃ d', to_bson C a = Some d' ∧ items s' = l1 ++ d' :: l2 ∧ r = Some (1, false)) ∨
     to_bson C a = None ∧ items s' = l1 ++ [] :: l2 ∧ r = Some (1, true)).
Proof.
  intros Hq. unfold replace_one. destruct (parse_qs qs Hq) as (f & -> & Hf).
  destruct (first_match_spec f _ (items s) Hf) as [[-> Hn]|(i & l1 & d & l2 & -> & Hfst & ->)].
  - intros [= <- <-]. auto.
  - pose proof Hfst as (Hl & _ & _). destruct (to_bson C a) as [d'|] eqn:Ha; intros [= <- <-]; right; (split; [done|]);
      exists l1, d, l2; (split; [done|]); simpl; rewrite Hl, insert_mid; eauto.
Qed.

Lemma exec_meets s c s' r : wf_call E U c → exec E U C s (op_of c) = (s', r) → meets E U C s c r s'.
Proof.
  destruct c as [a|l|qs|qs|qs|qs|qs us|qs us|qs a|qs a|qs rs]; cbn [wf_call op_of exec meets]; intros Hw.
  - destruct (insert_one C s a) as [s1 e] eqn:H1. intros [= <- <-]. exists e. split; [done|by apply insert_one_spec].
  - destruct (insert_many C s l) as [s1 e] eqn:H1. intros [= <- <-]. exists e. split; [done|by apply insert_many_spec].
  - destruct (parse_qs qs Hw) as (f & -> & Hf).
    destruct (first_match_spec f _ (items s) Hf) as [[-> Hn]|(i & l1 & d & l2 & -> & Hfst & ->)]; intros [= <- <-]; (split; [done|]); [auto|].
    right. exists l1, d, l2. split; [done|]. destruct Hfst as (-> & _). rewrite drop_app. by simpl.
  - destruct (parse_qs qs Hw) as (f & -> & Hf). destruct (all_matches_spec f _ (items s) Hf) as (l & -> & Hl).
    intros [= <- <-]. split; [done|]. eauto.
  - destruct (parse_qs qs Hw) as (f & -> & Hf).
    destruct (first_match_spec f _ (items s) Hf) as [[-> Hn]|(i & l1 & d & l2 & -> & Hfst & ->)]; intros [= <- <-]; split_and!; try done; [auto|].
    right. exists l1, d, l2. split; [done|]. simpl. destruct Hfst as (-> & _). rewrite take_app. f_equal.
    replace (S (length l1)) with (length (l1 ++ [d])) by (rewrite app_length; simpl; lia).
    change (d :: l2) with ([d] ++ l2). rewrite (assoc_L (++)). by rewrite drop_app.
  - destruct (parse_qs qs Hw) as (f & -> & Hf).
    destruct (delete_loop_spec f _ (items s) Hf (items s) 0 0 []) as (l & -> & Hl); [done|lia|lia|constructor|].
    intros [= <- <-]. done.
  - destruct Hw as [Hq Hu]. destruct (parse_qs qs Hq) as (f & -> & Hf). destruct (parse_upds us Hu) as (os & Hos & Hr). rewrite Hos.
    destruct (first_match_spec f _ (items s) Hf) as [[-> Hn]|(i & l1 & d & l2 & -> & Hfst & ->)]; [intros [= <- <-]; auto|].
    pose proof Hfst as (Hl & _). rewrite Hl. rewrite lookup_app_r, Nat.sub_diag by lia. simpl.
    destruct (update_doc E U os d) as [d' o] eqn:Hd. intros [= <- <-]. split; [done|]. right.
    exists l1, d, l2, d', o. split; [by rewrite <- Hl|]. split; [by eapply update_doc_spec|]. simpl. by rewrite insert_mid.
  - destruct Hw as [Hq Hu]. destruct (parse_qs qs Hq) as (f & -> & Hf). destruct (parse_upds us Hu) as (os & Hos & Hr). rewrite Hos.
    destruct (update_loop E U f os (items s)) as [[l n] o] eqn:Hl. intros [= <- <-]. split; [done|]. exists n, o.
    split; [|done]. by eapply update_loop_spec.
  - unfold upsert. destruct (replace_one E C s _ a) as [s1 r1] eqn:H1. apply replace_one_spec in H1; [|done].
    destruct H1 as [(Hn & -> & ->)|(Hk & l1 & d & l2 & Hfst & [(d' & Ha & Hi & ->)|(Ha & Hi & ->)])]; simpl.
    + destruct (insert_one C s a) as [s2 e] eqn:H2. intros [= <- <-]. left. split; [done|]. exists e. split; [by apply insert_one_spec|done].
    + intros [= <- <-]. right. split; [done|]. exists l1, d, l2. split; [done|]. left. exists d'. auto.
    + intros [= <- <-]. right. split; [done|]. exists l1, d, l2. auto.
  - destruct (replace_one E C s _ a) as [s1 r1] eqn:H1. apply replace_one_spec in H1; [|done].
    destruct H1 as [(Hn & -> & ->)|(Hk & l1 & d & l2 & Hfst & [(d' & Ha & Hi & ->)|(Ha & Hi & ->)])]; intros [= <- <-]; (split; [done|]).
    + auto.
    + right. exists l1, d, l2. split; [done|]. left. exists d'. auto.
    + right. exists l1, d, l2. auto.
  - destruct (parse_qs qs Hw) as (f & -> & Hf). destruct (replace_loop E C f (items s) rs) as [[l n] o] eqn:Hl.
    destruct (replace_loop_spec f _ Hf _ _ _ _ _ Hl) as (e & He & Hend). intros [= <- <-]. split; [done|]. exists n, e. done.
Qed.
Lemma exec_all_meets cs : ∀ s s' rs, Forall (wf_call E U) cs → exec_all E U C s (map op_of cs) = (s', rs) → meets_all E U C s cs rs s'.
Proof.
  induction cs as [|c cs IH]; intros s s' rs Hw; cbn [map exec_all]; [intros [= <- <-]; constructor|].
  apply list.Forall_cons in Hw as [Hc Hw]. destruct (exec E U C s (op_of c)) as [s1 r] eqn:H1.
  destruct (exec_all E U C s1 (map op_of cs)) as [s2 rs2] eqn:H2. intros [= <- <-]. econstructor; [by eapply exec_meets|]. by apply IH.
Qed.

(** A filter that does not parse. *)
Definition filter_of (o : op) : option doc :=
  match o with
  | FindOne f | FindMany f | DeleteOne f | DeleteMany f | UpdateOne f _ | UpdateMany f _ | Upsert f _ | ReplaceOne f _ => Some f
  | _ => None
  end.
Lemma bad_filter s o f s' r : filter_of o = Some f → parse_filter E f = None → exec E U C s o = (s', r) →
  s' = s ∧ ∃ v, r = Some (v, true).
Proof.
  destruct o; try done; intros [= ->] Hp; unfold exec, upsert, replace_one; rewrite Hp; simpl; intros [= <- <-]; eauto.
Qed.

(** Identifiers. *)
Definition keeps_ids (c : call) : Prop :=
  match c with CInsertOne _ | CInsertMany _ | CFindOne _ | CFindMany _ | CDeleteOne _ | CDeleteMany _ => True | _ => False end.
Definition all_ids (s : coll) : Prop := ∀ d, d ∈ items s → "_id"%string ∈ keys d.
Lemma chosen_sub P l r d : chosen P l r → d ∈ r → d ∈ l.
Proof. induction 1; [done|rewrite !elem_of_cons; naive_solver|rewrite elem_of_cons; auto]. Qed.
Lemma inserts_ids s l s' e : inserts C s l s' e → all_ids s → all_ids s'.
Proof.
  induction 1 as [| |s a l d s' s'' e Ha Hi _ IH]; [done|done|]. intros Hs. apply IH. intros x.
  destruct Hi as [(Hid & -> & _)|(Hid & -> & _)]; rewrite elem_of_app, elem_of_list_singleton; intros [Hx| ->]; auto.
  unfold keys. simpl. by left.
Qed.
Lemma meets_ids s c r s' : keeps_ids c → meets E U C s c r s' → all_ids s → all_ids s'.
Proof.
  destruct c; cbn [keeps_ids meets]; try done; intros _.
  - intros (e & _ & H). by eapply inserts_ids.
  - intros (e & _ & H). by eapply inserts_ids.
  - by intros [-> _].
  - by intros [-> _].
  - intros (_ & _ & [[_ H]|(l1 & d & l2 & (Hl & _) & H)]) Hs x; rewrite H; [apply Hs|]. intros Hx. apply Hs. rewrite Hl. set_solver.
  - intros (_ & _ & H) Hs x Hx. apply Hs. by eapply chosen_sub.
Qed.
Lemma history_ids cs s' rs : Forall (wf_call E U) cs → Forall keeps_ids cs →
  exec_all E U C empty_coll (map op_of cs) = (s', rs) → all_ids s'.
Proof.
  intros Hw Hk H%exec_all_meets; [|done]. assert (all_ids empty_coll) as H0 by (by intros x ?%elem_of_nil).
  revert Hk H0. clear Hw. induction H; [done|]. intros [Hc Hk]%list.Forall_cons Hs. apply IHmeets_all; [done|]. by eapply meets_ids.
Qed.

(** Upsert. *)
Lemma inserts_one_length s a s' e : inserts C s [a] s' e → length (items s') = (if e then length (items s) else S (length (items s))).
Proof.
  intros H. inversion H; subst; [done|]. match goal with H : inserts _ _ [] _ _ |- _ => inversion H; subst end.
  match goal with H : inserted _ _ _ _ |- _ => destruct H as [(_ & -> & _)|(_ & -> & _)] end; rewrite app_length; simpl; lia.
Qed.
Lemma upsert_size s qs a s' r : Forall (wf_query E) qs → exec E U C s (Upsert (map query_bson qs) a) = (s', r) →
  ∃ b e, r = Some (Flag b, e) ∧ length (items s') = (if b || e then length (items s) else S (length (items s)))%bool.
Proof.
  intros Hq H. pose proof (exec_meets s (CUpsert qs a) s' r Hq H) as Hm. destruct Hm as [(Hn & e & Hi & ->)|(Hk & l1 & d & l2 & (Hl & _) & [(d' & Hd)|Hd])].
  - exists false, e. split; [done|]. by apply (inserts_one_length _ a).
  - destruct Hd as (_ & Hi & ->). eexists true, _; (split; [done|]); simpl; rewrite Hi, Hl, !app_length; simpl; lia.
  - destruct Hd as (_ & Hi & ->). eexists true, _; (split; [done|]); simpl; rewrite Hi, Hl, !app_length; simpl; lia.
Qed.
Lemma upsert_again s qs a s1 v s2 r2 : Forall (wf_query E) qs →
  (∀ d, to_bson C a = Some d → holds E qs d) →
  (∀ d n, encoded a = Some d → if decide ("_id"%string ∈ keys d) then holds E qs d else holds E qs (("_id"%string, fresh_id C n) :: d)) →
  exec E U C s (Upsert (map query_bson qs) a) = (s1, Some (v, false)) →
  exec E U C s1 (Upsert (map query_bson qs) a) = (s2, r2) →
  ∃ e, r2 = Some (Flag true, e) ∧ length (items s2) = length (items s1).
Proof.
  intros Hq Hd1 Hd2 H1 H2. pose proof (exec_meets s (CUpsert qs a) _ _ Hq H1) as Hm.
  assert (∃ d, d ∈ items s1 ∧ holds E qs d) as (d & Hd & Hh).
  { destruct Hm as [(Hn & e & Hi & [= -> <-])|(Hk & l1 & d & l2 & (Hl & _) & [(d' & Hb & Hi & _)|(_ & _ & [=])])].
    - inversion Hi; subst. match goal with H : inserts _ _ [] _ _ |- _ => inversion H; subst end.
      match goal with H : encoded a = Some ?d |- _ => specialize (Hd2 d (ids_used s) H) end.
      match goal with H : inserted _ _ _ _ |- _ => destruct H as [(Hid & -> & _)|(Hid & -> & _)] end;
        case_decide; try done; (eexists; split; [apply elem_of_app; right; by left|done]).
    - exists d'. split; [rewrite Hi; set_solver|]. auto. }
  pose proof (exec_meets s1 (CUpsert qs a) _ _ Hq H2) as [(Hn & _)|(Hk & l1 & d0 & l2 & (Hl & _) & [(d' & Hr)|Hr])].
  - by destruct (Hn d Hd).
  - destruct Hr as (_ & Hi & ->). eexists; (split; [done|]); rewrite Hi, Hl, !app_length; simpl; lia.
  - destruct Hr as (_ & Hi & ->). eexists; (split; [done|]); rewrite Hi, Hl, !app_length; simpl; lia.
Qed.
End Proofs.

Definition id_query (k i : nat) : list query := [QLit [Key "_id"] (VOther k i)].
Lemma id_query_wf E k i : Forall (wf_query E) (id_query k i).
Proof. constructor; [|constructor]. simpl. repeat split; auto. repeat constructor. Qed.
Lemma id_holds E k i d : field "_id" d = Some (VOther k i) → holds E (id_query k i) d.
Proof.
  intros Hf. constructor; [|constructor]. simpl. exists (VOther k i), (VOther k i). split_and!; [|done|].
  - eapply reach_step; [by constructor|constructor].
  - simpl. by rewrite !Nat.eqb_refl.
Qed.
Lemma upsertid_again E U C k i a d d' s s1 v s2 r2 :
  encoded a = Some d → field "_id" d = Some (VOther k i) → to_bson C a = Some d' → field "_id" d' = Some (VOther k i) →
  exec E U C s (UpsertID (VOther k i) a) = (s1, Some (v, false)) →
  exec E U C s1 (UpsertID (VOther k i) a) = (s2, r2) →
  ∃ e, r2 = Some (Flag true, e) ∧ length (items s2) = length (items s1).
Proof.
  intros Ha Hd Hb Hd'. apply (upsert_again E U C s (id_query k i)).
  - apply id_query_wf.
  - rewrite Hb. intros ? [= <-]. by apply id_holds.
  - rewrite Ha. intros ? n [= <-]. case_decide as Hid; [by apply id_holds|]. apply field_none in Hid. congruence.
Qed.
