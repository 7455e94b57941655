(** * Proofs about NoSQL updates *)
From Coq Require Import Lia ZifyBool ZifyNat ZifyN.
From Verif Require Import Update_Spec Filter_Proof.

Lemma apart_cons s p q : apart (s :: p) q ↔ ∃ t q', q = t :: q' ∧ (s ≠ t ∨ s = t ∧ apart p q').
Proof.
  split.
  - intros (r & s' & t & p' & q' & H1 & H2 & Hne). destruct r as [|c r]; simplify_eq/=.
    + exists t, q'. auto.
    + exists c, (r ++ t :: q'). split; [done|]. right. split; [done|]. by exists r, s', t, p', q'.
  - intros (t & q' & -> & [Hne|[-> (r & s' & t' & p' & q'' & -> & -> & Hne)]]).
    + by exists [], s, t, p, q'.
    + by exists (t :: r), s', t', p', q''.
Qed.
Lemma apart_nil q : ¬ apart [] q.
Proof. intros (r & s & t & p' & q' & H & _). by destruct r. Qed.
Lemma get_nil p : default VNil (get p VNil) = VNil.
Proof. by destruct p as [|[] ?]. Qed.
Lemma get_nil_none p q : apart p q → get q VNil = None.
Proof. destruct p; [intros []%apart_nil|]. intros (t & q' & -> & _)%apart_cons. by destruct t. Qed.

Lemma field_set_same k x d : field k d ≠ None → field k (set_field k x d) = Some x.
Proof.
  induction d as [|[j y] d IH]; [done|]. simpl. case_bool_decide as Hj.
  - subst. simpl. by rewrite bool_decide_true.
  - simpl. rewrite bool_decide_false by done. apply IH.
Qed.
Lemma field_set_other j k x d : j ≠ k → field j (set_field k x d) = field j d.
Proof.
  intros Hne. induction d as [|[i y] d IH]; [done|]. simpl. case_bool_decide as Hj; simpl; case_bool_decide; congruence.
Qed.
Lemma set_field_id k x d : field k d = Some x → set_field k x d = d.
Proof.
  induction d as [|[j y] d IH]; [done|]. simpl. case_bool_decide as Hj; [congruence|]. intros. f_equal. auto.
Qed.
Lemma set_field_twice k x y d : set_field k x (set_field k y d) = set_field k x d.
Proof.
  induction d as [|[j z] d IH]; [done|]. simpl. case_bool_decide as Hj; simpl.
  - by rewrite bool_decide_true.
  - rewrite bool_decide_false by done. by f_equal.
Qed.
Lemma field_app k d d' : field k (d ++ d') = match field k d with Some x => Some x | None => field k d' end.
Proof. induction d as [|[j y] d IH]; [done|]. simpl. by case_bool_decide. Qed.
Lemma field_remove_other j k d : j ≠ k → field j (remove_field k d) = field j d.
Proof.
  intros Hne. induction d as [|[i y] d IH]; [done|]. simpl. case_bool_decide as Hj; simpl; case_bool_decide; congruence.
Qed.
Lemma field_none k d : field k d = None ↔ k ∉ keys d.
Proof.
  induction d as [|[j y] d IH]; [by rewrite elem_of_nil; split; auto|]. unfold keys in *. simpl. rewrite elem_of_cons.
  case_bool_decide; naive_solver.
Qed.
Lemma remove_field_gone k d : NoDup (keys d) → field k (remove_field k d) = None.
Proof.
  induction d as [|[j y] d IH]; [done|]. unfold keys in *. simpl. intros [Hnin Hnd]%list.NoDup_cons. case_bool_decide as Hj.
  - subst. by apply field_none.
  - simpl. rewrite bool_decide_false by done. by apply IH.
Qed.
Lemma remove_field_absent k d : field k d = None → remove_field k d = d.
Proof.
  induction d as [|[j y] d IH]; [done|]. simpl. case_bool_decide; [done|]. intros. f_equal. auto.
Qed.

Lemma reslice_last b a x : reslice b (a ++ [x]) (length a) = a ++ [x].
Proof.
  unfold reslice. rewrite take_app_le by (rewrite app_length; simpl; lia). apply take_ge. rewrite app_length. simpl. lia.
Qed.
Lemma reslice_end a : reslice [] a (length a) = a ++ [VNil].
Proof.
  unfold reslice. simpl. change (VNil :: replicate (length a) VNil) with ([VNil] ++ replicate (length a) VNil).
  rewrite (assoc_L (++)). rewrite take_app_le by (rewrite app_length; simpl; lia). apply take_ge. rewrite app_length. simpl. lia.
Qed.
Lemma lookup_last (a : list val) x : (a ++ [x]) !! length a = Some x.
Proof. by rewrite lookup_app_r, Nat.sub_diag by lia. Qed.
Lemma insert_last (a : list val) x y : <[length a := y]> (a ++ [x]) = a ++ [y].
Proof. rewrite insert_app_r_alt by lia. by rewrite Nat.sub_diag. Qed.

Section Proofs.
Context (E : env) (U : uenv).

(** A failed update changes nothing. *)
Lemma uapply_fail u : ∀ v v' r, uapply E U u v = (v', r) → r ≠ UOk → v' = v.
Proof.
  induction u as [x|x|x|f|k|i|a|k c u IH|i c u IH|u IH]; intros v v' r; simpl.
  - destruct x; congruence.
  - destruct v; congruence.
  - destruct v; congruence.
  - destruct v; try congruence. destruct (pull_from E f l); congruence.
  - destruct v; congruence.
  - destruct v; try congruence. repeat case_bool_decide; congruence.
  - destruct v; congruence.
  - destruct v; try congruence.
    + destruct c; [|congruence]. destruct (uapply E U u VNil) as [x []]; congruence.
    + destruct (field k d) as [x|] eqn:Hf.
      * destruct (uapply E U u x) as [x' r'] eqn:Hu. intros [= <- <-] Hr. apply IH in Hu; [|done]. subst. by rewrite set_field_id.
      * destruct c; [|congruence]. destruct (uapply E U u VNil) as [x []]; congruence.
  - destruct v; try congruence.
    + destruct c; [|congruence]. simpl. case_bool_decide; [congruence|].
      destruct (reslice [] [] (Z.to_nat i) !! Z.to_nat i) as [x|]; [|congruence].
      destruct (uapply E U u x) as [x' []] eqn:Hu; congruence.
    + destruct (negb c && _); [congruence|]. case_bool_decide; [congruence|].
      destruct (reslice (stale U l) l (Z.to_nat i) !! Z.to_nat i) as [x|] eqn:Hx; [|congruence].
      destruct (uapply E U u x) as [x' r'] eqn:Hu.
      assert (r' ≠ UOk → VArr (<[Z.to_nat i:=x']> l) = VArr l) as Hid.
      { intros Hr. apply IH in Hu; [|done]. subst x'. f_equal. destruct (decide (Z.to_nat i < length l)).
        - apply list_insert_id. revert Hx. unfold reslice. rewrite lookup_take by lia. by rewrite lookup_app_l by lia.
        - apply list_insert_ge. lia. }
      destruct r'; intros [= <- <-] Hr; auto; done.
  - apply IH.
Qed.

Lemma apply_all_fail us v v' r : apply_all E U us v = (v', r) → r ≠ UOk →
  ∃ us1 u us2, us = us1 ++ u :: us2 ∧ apply_all E U us1 v = (v', UOk) ∧ uapply E U u v' = (v', r).
Proof.
  revert v. induction us as [|u us IH]; intros v; simpl; [congruence|].
  destruct (uapply E U u v) as [w [| |]] eqn:Hu; intros H Hr.
  - destruct (IH _ H Hr) as (us1 & u' & us2 & -> & H1 & H2). exists (u :: us1), u', us2. simpl. by rewrite Hu.
  - injection H as -> <-. assert (v' = v) as Hv by (eapply uapply_fail; [exact Hu|done]). rewrite Hv in *. by exists [], u, us.
  - injection H as -> <-. assert (v' = v) as Hv by (eapply uapply_fail; [exact Hu|done]). rewrite Hv in *. by exists [], u, us.
Qed.

Lemma upath_key b k ss u v : atoi k = None →
  uapply E U (update_path b (k :: ss) u) v = uapply E U (UField k true (update_path false ss u)) v.
Proof. intros Hk. cbn [update_path]. rewrite Hk. by destruct b. Qed.
Lemma upath_idx b i ss u v : (i < 2 ^ 63)%N →
  uapply E U (update_path b (pretty i :: ss) u) v = uapply E U (UIndex (Z.of_N i) true (update_path false ss u)) v.
Proof. intros Hi. cbn [update_path]. by rewrite atoi_pretty. Qed.

(** What an update along a path does to the value at its end and to the rest. *)
Lemma update_path_spec u p : ∀ b v v', Forall wf_seg p → fits U p v →
  uapply E U (update_path b (map seg_string p) u) v = (v', UOk) →
  ∃ new, get p v' = Some new ∧ uapply E U u (default VNil (get p v)) = (new, UOk) ∧
    ∀ q, apart p q → get q v' = get q v.
Proof.
  induction p as [|[k|i] p IH]; intros b v v' Hwf Hfits.
  - simpl. intros H. exists v'. split_and!; [done|done|]. intros q []%apart_nil.
  - apply list.Forall_cons in Hwf as [[Hdot Hk] Hwf]. cbn [map seg_string]. rewrite upath_key by done. cbn [uapply].
    cbn [fits] in Hfits. destruct v as [| | | | | | | | | |d]; try congruence.
    + destruct (uapply E U _ VNil) as [x []] eqn:Hu; try congruence. intros [= <-].
      destruct (IH _ _ _ Hwf Hfits Hu) as (new & H1 & H2 & H3). exists new.
      rewrite get_nil in H2. cbn. rewrite bool_decide_true by done. split_and!; [done|done|].
      intros q (t & q' & -> & Hq)%apart_cons. destruct Hq as [Hne|[<- Hq]].
      * destruct t as [j|j]; [|done]. cbn. rewrite bool_decide_false by congruence. done.
      * cbn. rewrite bool_decide_true by done. rewrite H3 by done. by eapply get_nil_none.
    + destruct (field k d) as [x|] eqn:Hf; simpl in Hfits.
      * destruct (uapply E U _ x) as [x' r] eqn:Hu. intros [= <- ->].
        destruct (IH _ _ _ Hwf Hfits Hu) as (new & H1 & H2 & H3). exists new.
        cbn [get]. rewrite field_set_same by congruence. rewrite Hf. split_and!; [done|done|].
        intros q (t & q' & -> & Hq)%apart_cons. destruct Hq as [Hne|[<- Hq]].
        -- destruct t as [j|j]; [|done]. cbn [get]. rewrite field_set_other by congruence. done.
        -- cbn [get]. rewrite field_set_same by congruence. rewrite Hf. auto.
      * destruct (uapply E U _ VNil) as [x []] eqn:Hu; try congruence. intros [= <-].
        destruct (IH _ _ _ Hwf Hfits Hu) as (new & H1 & H2 & H3). exists new.
        rewrite get_nil in H2. cbn [get]. rewrite field_app, Hf. simpl. rewrite bool_decide_true by done. split_and!; [done|done|].
        intros q (t & q' & -> & Hq)%apart_cons. destruct Hq as [Hne|[<- Hq]].
        -- destruct t as [j|j]; [|done]. cbn. rewrite field_app. destruct (field j d); [done|]. simpl.
           by rewrite bool_decide_false by congruence.
        -- cbn. rewrite field_app, Hf. simpl. rewrite bool_decide_true by done. rewrite H3 by done. by eapply get_nil_none.
  - apply list.Forall_cons in Hwf as [Hi Hwf]. cbn [map seg_string]. rewrite upath_idx by done. cbn [uapply negb andb].
    rewrite (bool_decide_false (Z.of_N i < 0)%Z) by lia. replace (Z.to_nat (Z.of_N i)) with (N.to_nat i) by lia.
    cbn [fits] in Hfits. destruct v as [| | | | | | | | |a|]; try congruence.
    + destruct Hfits as [-> Hfits]. replace (N.to_nat 0) with (length (@nil val)) by done.
      rewrite reslice_end, lookup_last. destruct (uapply E U _ VNil) as [x []] eqn:Hu; try congruence. intros [= <-].
      destruct (IH _ _ _ Hwf Hfits Hu) as (new & H1 & H2 & H3). exists new.
      rewrite get_nil in H2. cbn. split_and!; [done|done|].
      intros q (t & q' & -> & Hq)%apart_cons. destruct Hq as [Hne|[<- Hq]].
      * destruct t as [j|j]; [done|]. cbn. rewrite lookup_ge_None_2; [done|]. simpl. assert (j ≠ 0%N) by congruence. lia.
      * cbn. rewrite H3 by done. by eapply get_nil_none.
    + destruct Hfits as [(a' & x & -> & Hlen & Hfits)|(Hlen & Hst & Hfits)].
      * rewrite <- Hlen. rewrite reslice_last, lookup_last. destruct (uapply E U _ x) as [x' []] eqn:Hu; try congruence. intros [= <-].
        destruct (IH _ _ _ Hwf Hfits Hu) as (new & H1 & H2 & H3). exists new. rewrite insert_last.
        cbn [get]. rewrite <- Hlen, !lookup_last. split_and!; [done|done|].
        intros q (t & q' & -> & Hq)%apart_cons. destruct Hq as [Hne|[<- Hq]].
        -- destruct t as [j|j]; [done|]. cbn [get]. assert (N.to_nat j ≠ length a') by (intros ?; apply Hne; f_equal; lia).
           destruct (decide (N.to_nat j < length a')).
           ++ by rewrite !lookup_app_l by done.
           ++ rewrite !lookup_ge_None_2; [done|rewrite app_length; simpl; lia..].
        -- cbn [get]. rewrite <- Hlen, !lookup_last. auto.
      * rewrite Hst. rewrite <- Hlen. rewrite reslice_end, lookup_last. destruct (uapply E U _ VNil) as [x' []] eqn:Hu; try congruence. intros [= <-].
        destruct (IH _ _ _ Hwf Hfits Hu) as (new & H1 & H2 & H3). exists new. rewrite get_nil in H2. rewrite insert_last.
        cbn [get]. rewrite <- Hlen, !lookup_last. rewrite (lookup_ge_None_2 a) by lia. split_and!; [done|done|].
        intros q (t & q' & -> & Hq)%apart_cons. destruct Hq as [Hne|[<- Hq]].
        -- destruct t as [j|j]; [done|]. cbn [get]. assert (N.to_nat j ≠ length a) by (intros ?; apply Hne; f_equal; lia).
           destruct (decide (N.to_nat j < length a)).
           ++ by rewrite !lookup_app_l by done.
           ++ rewrite !lookup_ge_None_2; [done|try rewrite app_length; simpl; lia..].
        -- cbn [get]. rewrite <- Hlen, !lookup_last. rewrite (lookup_ge_None_2 a) by lia. rewrite H3 by done. by eapply get_nil_none.
Qed.

Lemma keys_only_fits p v : keys_only p → fits U p v.
Proof. revert v. induction p as [|[] p IH]; intros v; simpl; [done| |]; intros [??]%list.Forall_cons; auto. done. Qed.

(** An update whose path leads somewhere succeeds if it does there. *)
Lemma update_path_ok u p : ∀ b v old new, Forall wf_seg p → get p v = Some old →
  uapply E U u old = (new, UOk) → ∃ v', uapply E U (update_path b (map seg_string p) u) v = (v', UOk).
Proof.
  induction p as [|[k|i] p IH]; intros b v old new Hwf Hget Hu.
  - simpl in *. injection Hget as <-. eauto.
  - apply list.Forall_cons in Hwf as [[Hdot Hk] Hwf]. cbn [map seg_string]. rewrite upath_key by done. cbn [uapply].
    cbn [get] in Hget. destruct v; try done. destruct (field k d) as [x|] eqn:Hf; [|done].
    destruct (IH false _ _ _ Hwf Hget Hu) as [x' ->]. eauto.
  - apply list.Forall_cons in Hwf as [Hi Hwf]. cbn [map seg_string]. rewrite upath_idx by done. cbn [uapply negb andb].
    rewrite (bool_decide_false (Z.of_N i < 0)%Z) by lia. replace (Z.to_nat (Z.of_N i)) with (N.to_nat i) by lia.
    cbn [get] in Hget. destruct v; try done. destruct (l !! N.to_nat i) as [x|] eqn:Hf; [|done].
    pose proof (lookup_lt_Some _ _ _ Hf).
    assert (reslice (stale U l) l (N.to_nat i) !! N.to_nat i = Some x) as ->.
    { unfold reslice. rewrite lookup_take by lia. by rewrite lookup_app_l by lia. }
    destruct (IH false _ _ _ Hwf Hget Hu) as [x' ->]. eauto.
Qed.

(** The operators. *)
Lemma wrap_spec n z : (0 < n)%Z → (- 2 ^ (n - 1) ≤ wrap n z < 2 ^ (n - 1))%Z ∧ ∃ k, (wrap n z = z + k * 2 ^ n)%Z.
Proof.
  intros Hn. unfold wrap. assert (2 ^ n = 2 * 2 ^ (n - 1))%Z as Hp by (rewrite <- Z.pow_succ_r by lia; f_equal; lia).
  pose proof (Z.pow_pos_nonneg 2 (n - 1)) as Hpos.
  pose proof (Z.mod_pos_bound (z + 2 ^ (n - 1)) (2 ^ n)) as Hb. pose proof (Z.div_mod (z + 2 ^ (n - 1)) (2 ^ n)) as Hd. split; [lia|].
  exists (- ((z + 2 ^ (n - 1)) / 2 ^ n))%Z. lia.
Qed.
Lemma wrap_unique n z s : (0 < n)%Z → (- 2 ^ (n - 1) ≤ s < 2 ^ (n - 1))%Z → (∃ k, s = z + k * 2 ^ n)%Z → s = wrap n z.
Proof.
  intros Hn Hs [k ->]. unfold wrap. assert (2 ^ n = 2 * 2 ^ (n - 1))%Z as Hp by (rewrite <- Z.pow_succ_r by lia; f_equal; lia).
  pose proof (Z.pow_pos_nonneg 2 (n - 1)) as Hpos.
  rewrite <- (Z.mod_add _ k) by lia. rewrite Z.mod_small; lia.
Qed.
Lemma bits_pos t : (0 < bits t)%Z.
Proof. by destruct t. Qed.
Lemma machine_sum_wrap t z a s : machine_sum t z a s ↔ s = wrap (bits t) (z + a).
Proof.
  unfold machine_sum, in_range. split.
  - intros [H1 H2]. apply wrap_unique; [apply bits_pos|done|done].
  - intros ->. apply wrap_spec, bits_pos.
Qed.

Lemma pull_spec f P l : good E f P → ∃ r, pull_from E f l = Some r ∧ left_after P l r.
Proof.
  intros Hf. induction l as [|x l (r & IH & Hr)]; simpl; [eexists; split; [done|constructor]|].
  destruct (Hf x) as (b & -> & Hb). rewrite IH. eexists. split; [done|]. destruct b.
  - apply left_out; [by apply Hb|done].
  - apply left_in; [|done]. rewrite <- Hb. done.
Qed.
Lemma left_after_unique P l r r' : left_after P l r → left_after P l r' → r = r'.
Proof. intros H. revert r'. induction H; intros r'; inversion 1; subst; try done; [auto|by f_equal; auto]. Qed.

Lemma add_to_set_spec w l :
  ((∃ x, x ∈ l ∧ deep_equal E w x = true) ∧ add_to_set E w l = l) ∨
  ((∀ x, x ∈ l → deep_equal E w x = false) ∧ add_to_set E w l = l ++ [w]).
Proof.
  unfold add_to_set. destruct (existsb _ l) eqn:He.
  - left. split; [|done]. apply existsb_exists in He as (x & Hx%elem_of_list_In & He). eauto.
  - right. split; [|done]. intros x Hx. destruct (deep_equal E w x) eqn:Hd; [|done].
    assert (existsb (λ x, deep_equal E w x) l = true) as Ht; [|congruence]. apply existsb_exists. exists x. split; [by apply elem_of_list_In|done].
Qed.

Lemma parse_single op k v o : parse_one E U op k v = Some o → known_op op = true →
  parse_update E U [(op, VDoc [(k, v)])] = Some [o].
Proof. intros Ho Hk. cbn [parse_update]. rewrite Hk. cbn -[parse_one]. by rewrite Ho. Qed.
Lemma parse_unset p x : p ≠ [] → Forall wf_seg p →
  parse_update E U [upd_bson (PUnset p x)] = Some [unset_path true (map seg_string p)].
Proof. intros Hne Hp. apply parse_single; [|done]. unfold parse_one. simpl. by rewrite split_path. Qed.
Lemma parse_inc p t a : p ≠ [] → Forall wf_seg p →
  parse_update E U [upd_bson (PInc p t a)] = Some [update_path true (map seg_string p) (UInc a)].
Proof. intros Hne Hp. apply parse_single; [|done]. unfold parse_one. simpl. by rewrite split_path. Qed.
Lemma parse_upd u : wf_upd E U u → ¬ is_unset u →
  ∃ o, parse_update E U [upd_bson u] = Some [update_path true (map seg_string (path_of u)) o] ∧
    ∀ old new, effect E U u old new ↔ uapply E U o old = (new, UOk).
Proof.
  intros (Hne & Hp & Hw) Hu. pose proof (split_path _ Hne Hp) as Hs.
  assert (∀ op v o, parse_one E U op (path_string (path_of u)) v = Some o → known_op op = true →
    parse_update E U [(op, VDoc [(path_string (path_of u), v)])] = Some [o]) as Hparse.
  { intros op v o. apply parse_single. }
  destruct u as [p v|p v|p v|p l|p qs|p t a|p v]; cbn [path_of is_unset effect upd_bson] in *; try done.
  - destruct Hw as (w & Hv & Hw). exists (USet w). split.
    + apply Hparse; [|done]. unfold parse_one. simpl. rewrite Hs, Hv. done.
    + intros old new. rewrite Hv. simpl. destruct w; (split; [by intros [= <-]|by intros [= <-]]) || done.
  - destruct Hw as ((w & Hv & Hw) & Hm). exists (UPush w). split.
    + apply Hparse; [|done]. unfold parse_one. simpl. rewrite Hs, Hv, Hm. done.
    + intros old new. simpl. split.
      * intros (w' & l & Hw' & Ho & ->). assert (w' = w) as -> by congruence. destruct Ho as [->|[-> ->]]; done.
      * destruct old; try done; intros [= <-]; [exists w, []|exists w, l]; auto.
  - destruct Hw as ((w & Hv & Hw) & Hm). exists (UAddToSet w). split.
    + apply Hparse; [|done]. unfold parse_one. simpl. rewrite Hs, Hv, Hm. done.
    + intros old new. simpl. split.
      * intros (w' & l & Hw' & Ho & Hn). assert (w' = w) as -> by congruence.
        assert (new = VArr (add_to_set E w l)) as ->.
        { destruct Hn as [[(x & Hx & Hd) ->]|[Hall ->]]; f_equal; destruct (add_to_set_spec w l) as [[(y & Hy & Hd') ->]|[Hall' ->]]; try done.
          - rewrite Hall' in Hd by done. done.
          - rewrite Hall in Hd' by done. done. }
        destruct Ho as [->|[-> ->]]; done.
      * destruct old; try done; intros [= <-]; [exists w, []|exists w, l]; split_and!; auto.
        -- right. split; [intros ?; by rewrite elem_of_nil|done].
        -- destruct (add_to_set_spec w l) as [[H ->]|[H ->]]; [left|right]; done.
  - exists (UPull (equals E l)). split.
    + apply Hparse; [|done]. unfold parse_one. simpl. rewrite Hs. by destruct l.
    + intros old new. simpl. split.
      * intros [[-> ->]|(l' & r & -> & -> & Hr)]; [done|].
        destruct (pull_spec (equals E l) (matches E l) l') as (r' & -> & Hr'); [by apply good_equals|]. by rewrite (left_after_unique _ _ _ _ Hr Hr').
      * destruct old; try done; [intros [= <-]; auto|]. 
        destruct (pull_spec (equals E l) (matches E l) l0) as (r' & -> & Hr'); [by apply good_equals|]. intros [= <-]. right. eauto.
  - destruct Hw as [Hq Hd]. destruct (parse_filter_good E qs Hq) as (f & Hf & Hgood). exists (UPull f). split.
    + apply Hparse; [|done]. unfold parse_one. simpl. rewrite Hs.
      assert (existsb (λ e : string * val, dollar e.1) (map query_bson qs) = false) as ->.
      { clear -Hd. induction Hd as [|q qs Hq Hd IH]; [done|]. simpl. by rewrite Hq, IH. }
      by rewrite Hf.
    + intros old new. simpl. split.
      * intros [[-> ->]|(l' & r & -> & -> & Hr)]; [done|].
        destruct (pull_spec f (sats E qs) l') as (r' & -> & Hr'); [done|]. by rewrite (left_after_unique _ _ _ _ Hr Hr').
      * destruct old; try done; [intros [= <-]; auto|].
        destruct (pull_spec f (sats E qs) l) as (r' & -> & Hr'); [done|]. intros [= <-]. right. eauto.
  - exists (UInc a). split.
    + apply Hparse; [|done]. unfold parse_one. simpl. by rewrite Hs.
    + intros old new. simpl. split.
      * intros [(t' & z & s & Ho & -> & Hsum)|(sg & x & -> & ->)]; [|done]. apply machine_sum_wrap in Hsum as ->.
        destruct Ho as [->|(-> & -> & ->)]; done.
      * destruct old as [| |t' z|sg x| | | | | | |]; try done; intros [= <-]; [left|left|right; eauto].
        -- exists TInt64, 0%Z, (wrap 64 a). split_and!; auto. by apply machine_sum_wrap.
        -- exists t', z, (wrap (bits t') (z + a)). split_and!; auto. by apply machine_sum_wrap.
Qed.

Lemma run_update_spec u d v' : wf_upd E U u → ¬ is_unset u → fits U (path_of u) (VDoc d) →
  run_update E U [upd_bson u] d = Some (v', UOk) →
  ∃ new, get (path_of u) v' = Some new ∧ effect E U u (default VNil (get (path_of u) (VDoc d))) new ∧
    ∀ q, apart (path_of u) q → get q v' = get q (VDoc d).
Proof.
  intros Hw Hu Hfits. destruct (parse_upd u Hw Hu) as (o & Hparse & Heff). unfold run_update. rewrite Hparse. cbn [apply_all].
  destruct (uapply E U _ (VDoc d)) as [w []] eqn:Ha; intros [= <-]. 
  destruct Hw as (_ & Hp & _). destruct (update_path_spec _ _ _ _ _ Hp Hfits Ha) as (new & H1 & H2 & H3).
  exists new. split_and!; [done|by apply Heff|done].
Qed.
Lemma run_update_ok u d old new : wf_upd E U u → ¬ is_unset u →
  get (path_of u) (VDoc d) = Some old → effect E U u old new → ∃ v', run_update E U [upd_bson u] d = Some (v', UOk).
Proof.
  intros Hw Hu Hg He. destruct (parse_upd u Hw Hu) as (o & Hparse & Heff). unfold run_update. rewrite Hparse. cbn [apply_all].
  destruct Hw as (_ & Hp & _). apply Heff in He. destruct (update_path_ok _ _ true _ _ _ Hp Hg He) as [v' Hv]. rewrite Hv. eauto.
Qed.

(** $unset. *)
Lemma unset_key b k s ss v : atoi k = None →
  uapply E U (unset_path b (k :: s :: ss)) v = uapply E U (UField k false (unset_path false (s :: ss))) v.
Proof. intros Hk. cbn [unset_path]. rewrite Hk. by destruct b. Qed.
Lemma unset_idx b i s ss v : (i < 2 ^ 63)%N →
  uapply E U (unset_path b (pretty i :: s :: ss)) v = uapply E U (UIndex (Z.of_N i) false (unset_path false (s :: ss))) v.
Proof. intros Hi. cbn [unset_path]. by rewrite atoi_pretty. Qed.

Lemma unset_path_spec p s : ∀ b v v', Forall wf_seg (p ++ [s]) → at_end p v →
  (∀ d, get p v = Some (VDoc d) → NoDup (keys d)) →
  uapply E U (unset_path b (map seg_string (p ++ [s]))) v = (v', UOk) →
  get (p ++ [s]) v' = match s with Key _ => None | Idx _ => match get (p ++ [s]) v with Some _ => Some VNil | None => None end end ∧
  ∀ q, apart (p ++ [s]) q → get q v' = get q v.
Proof.
  induction p as [|[k|i] p IH]; intros b v v' Hwf Hend Hnd.
  - simpl in *. apply list.Forall_cons in Hwf as [Hs _]. destruct s as [k|i]; simpl in *.
    + destruct Hs as [Hdot Hk]. rewrite Hk. simpl. destruct v; try congruence; intros [= <-].
      * split; [done|]. done.
      * rewrite remove_field_gone by auto. split; [done|]. intros q (t & q' & -> & [Hne|[_ []%apart_nil]])%apart_cons.
        destruct t as [j|j]; [|done]. simpl. rewrite field_remove_other by congruence. done.
    + rewrite atoi_pretty by done. simpl. destruct v as [| | | | | | | | |a|]; try congruence; [intros [= <-]; done|].
      rewrite (bool_decide_false (Z.of_N i < 0)%Z) by lia. replace (Z.to_nat (Z.of_N i)) with (N.to_nat i) by lia.
      case_bool_decide as Hl; intros [= <-].
      * destruct (lookup_lt_is_Some_2 a (N.to_nat i)) as [x Hx]; [lia|]. rewrite Hx. split.
        -- rewrite list_lookup_insert by lia. done.
        -- intros q (t & q' & -> & [Hne|[_ []%apart_nil]])%apart_cons. destruct t as [j|j]; [done|]. simpl.
           rewrite list_lookup_insert_ne; [done|]. intros Hij. apply Hne. f_equal. lia.
      * rewrite lookup_ge_None_2 by lia. done.
  - rewrite <- app_comm_cons in Hwf. apply list.Forall_cons in Hwf as [[Hdot Hk] Hwf].
    destruct (map seg_string (p ++ [s])) as [|s0 ss] eqn:Hss; [by destruct p|].
    rewrite <- app_comm_cons. cbn [map seg_string]. rewrite Hss, unset_key by done. cbn [uapply at_end get] in *.
    destruct v as [| | | | | | | | | |d]; try congruence.
    + intros [= <-]. split; [by destruct s|done].
    + destruct (field k d) as [x|] eqn:Hf.
      * destruct (uapply E U _ x) as [x' r] eqn:Hu. intros [= <- ->]. specialize (IH false x x' Hwf Hend). try rewrite Hss in IH.
        destruct IH as [H1 H2]; [auto|done|]. rewrite field_set_same by congruence. split; [done|].
        intros q (t & q' & -> & Hq)%apart_cons. destruct Hq as [Hne|[<- Hq]].
        -- destruct t as [j|j]; [|done]. cbn [get]. rewrite field_set_other by congruence. done.
        -- cbn [get]. rewrite field_set_same by congruence. rewrite Hf. auto.
      * intros [= <-]. rewrite Hf. split; [by destruct s|done].
  - rewrite <- app_comm_cons in Hwf. apply list.Forall_cons in Hwf as [Hi Hwf].
    destruct (map seg_string (p ++ [s])) as [|s0 ss] eqn:Hss; [by destruct p|].
    rewrite <- app_comm_cons. cbn [map seg_string]. rewrite Hss, unset_idx by done. cbn [uapply at_end get negb andb] in *.
    destruct v as [| | | | | | | | |a|]; try congruence; [intros [= <-]; split; [by destruct s|done]|].
    rewrite (bool_decide_false (Z.of_N i < 0)%Z) by lia. replace (Z.to_nat (Z.of_N i)) with (N.to_nat i) by lia.
    case_bool_decide as Hle.
    + intros [= <-]. rewrite lookup_ge_None_2 by lia. split; [by destruct s|done].
    + destruct Hend as [?|(a' & x & -> & Hlen & Hend)]; [lia|].
      rewrite <- Hlen in *. rewrite reslice_last, !lookup_last in *.
      destruct (uapply E U _ x) as [x' []] eqn:Hu; try congruence. intros [= <-].
      specialize (IH false x x' Hwf Hend). try rewrite Hss in IH. destruct IH as [H1 H2]; [auto|done|].
      rewrite insert_last, lookup_last. split; [done|].
      intros q (t & q' & -> & Hq)%apart_cons. destruct Hq as [Hne|[<- Hq]].
      * destruct t as [j|j]; [done|]. cbn [get]. assert (N.to_nat j ≠ length a') by (intros ?; apply Hne; f_equal; lia).
        destruct (decide (N.to_nat j < length a')).
        -- by rewrite !lookup_app_l by done.
        -- rewrite !lookup_ge_None_2; [done|rewrite app_length; simpl; lia..].
      * cbn [get]. rewrite <- Hlen, !lookup_last. auto.
Qed.

Lemma run_unset_spec p s x d v' : Forall wf_seg (p ++ [s]) → at_end p (VDoc d) →
  (∀ d', get p (VDoc d) = Some (VDoc d') → NoDup (keys d')) →
  run_update E U [upd_bson (PUnset (p ++ [s]) x)] d = Some (v', UOk) →
  get (p ++ [s]) v' = match s with Key _ => None | Idx _ => match get (p ++ [s]) (VDoc d) with Some _ => Some VNil | None => None end end ∧
  ∀ q, apart (p ++ [s]) q → get q v' = get q (VDoc d).
Proof.
  intros Hwf Hend Hnd. unfold run_update. rewrite parse_unset by (by destruct p).
  cbn [apply_all]. destruct (uapply E U _ (VDoc d)) as [w []] eqn:Ha; intros [= <-]. by eapply unset_path_spec.
Qed.

(** $inc there and back. *)
Lemma wrap_back t z a b : in_range t z → (a + b = 0)%Z → wrap (bits t) (wrap (bits t) (z + a) + b) = z.
Proof.
  intros Hz Hab. symmetry. apply wrap_unique; [apply bits_pos|done|].
  destruct (wrap_spec (bits t) (z + a) (bits_pos t)) as [_ [k Hk]]. exists (- k)%Z. lia.
Qed.
Lemma inc_back p t z a b : ∀ c v v', Forall wf_seg p → fits U p v → get p v = Some (VInt t z) → in_range t z → (a + b = 0)%Z →
  uapply E U (update_path c (map seg_string p) (UInc a)) v = (v', UOk) →
  uapply E U (update_path c (map seg_string p) (UInc b)) v' = (v, UOk).
Proof.
  intros c v v' Hwf Hfits Hget Hz Hab. revert c v v' Hwf Hfits Hget. induction p as [|[k|i] p IH]; intros c v v' Hwf Hfits Hget.
  - simpl in *. injection Hget as ->. intros [= <-]. by rewrite wrap_back.
  - apply list.Forall_cons in Hwf as [[Hdot Hk] Hwf]. cbn [map seg_string]. rewrite !upath_key by done. cbn [uapply].
    cbn [fits get] in *. destruct v as [| | | | | | | | | |d]; try done. destruct (field k d) as [x|] eqn:Hf; [|done]. simpl in Hfits.
    destruct (uapply E U _ x) as [x' r] eqn:Hu. intros [= <- ->]. rewrite field_set_same by congruence.
    rewrite (IH _ _ _ Hwf Hfits Hget Hu). rewrite set_field_twice. by rewrite set_field_id.
  - apply list.Forall_cons in Hwf as [Hi Hwf]. cbn [map seg_string]. rewrite !upath_idx by done. cbn [uapply negb andb].
    rewrite (bool_decide_false (Z.of_N i < 0)%Z) by lia. replace (Z.to_nat (Z.of_N i)) with (N.to_nat i) by lia.
    cbn [fits get] in *. destruct v as [| | | | | | | | |l|]; try done.
    destruct Hfits as [(a' & x & -> & Hlen & Hfits)|(Hlen & Hst & Hfits)].
    + rewrite <- Hlen in *. rewrite reslice_last, lookup_last in *.
      destruct (uapply E U _ x) as [x' []] eqn:Hu; try congruence. intros [= <-].
      rewrite insert_last, reslice_last, lookup_last. rewrite (IH _ _ _ Hwf Hfits Hget Hu). by rewrite insert_last.
    + rewrite lookup_ge_None_2 in Hget by lia. done.
Qed.
Lemma run_inc_back p t ta tb z a b d v' : p ≠ [] → Forall wf_seg p → fits U p (VDoc d) →
  get p (VDoc d) = Some (VInt t z) → in_range t z → (a + b = 0)%Z →
  run_update E U [upd_bson (PInc p ta a)] d = Some (v', UOk) →
  ∃ d', v' = VDoc d' ∧ run_update E U [upd_bson (PInc p tb b)] d' = Some (VDoc d, UOk).
Proof.
  intros Hne Hwf Hfits Hget Hz Hab. unfold run_update. rewrite parse_inc by done.
  cbn [apply_all]. destruct (uapply E U _ (VDoc d)) as [w []] eqn:Ha; intros [= <-].
  pose proof (inc_back _ _ _ _ _ _ _ _ Hwf Hfits Hget Hz Hab Ha) as Hb.
  destruct p as [|[k|i] p]; [done| |].
  - assert (∃ d', w = VDoc d') as [d' ->].
    { cbn [map seg_string] in Ha. apply list.Forall_cons in Hwf as [[Hdot Hk] Hwf]. rewrite upath_key in Ha by done. cbn [uapply] in Ha.
      destruct (field k d) as [x|]; destruct (uapply E U _ _) as [? []] in Ha; simplify_eq; eauto. }
    exists d'. split; [done|]. rewrite parse_inc by done. cbn [apply_all]. by rewrite Hb.
  - done.
Qed.
End Proofs.
