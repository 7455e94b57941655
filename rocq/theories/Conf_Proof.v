(** * Proofs about the arguments of a process *)
From Verif Require Import Conf_Spec.

Lemma apply_ops_app os1 os2 st : apply_ops (os1 ++ os2) st = match apply_ops os1 st with Some st' => apply_ops os2 st' | None => None end.
Proof. revert st. induction os1 as [|o os1 IH]; intros st; simpl; [done|]. destruct (apply_op o st); [apply IH|done]. Qed.

Lemma defines_dec n o : (∃ d, defines n o d) ∨ (∀ d, ¬ defines n o d).
Proof.
  destruct o as [m v|m k|m|m]; simpl; [| |right; by intros d []|right; by intros d []].
  - destruct (decide (m = n)) as [->|]; [left; eauto|right; by intros d [? _]].
  - destruct (decide (m = n)) as [->|]; [left; eauto|right; by intros d [? _]].
Qed.
Lemma defines_fun n o d d' : defines n o d → defines n o d' → d = d'.
Proof. destruct o; simpl; naive_solver. Qed.
Lemma defines_not_unset n o d : defines n o d → d ≠ DUnset.
Proof. destruct o; simpl; naive_solver. Qed.

Lemma explicitly_snoc os o n d : explicitly (os ++ [o]) n d ↔ defines n o d ∨ (∀ d', ¬ defines n o d') ∧ explicitly os n d.
Proof.
  split.
  - intros (h1 & o1 & h2 & Heq & Hd & Hno). destruct h2 as [|x h2 _] using rev_ind.
    + apply app_inj_tail in Heq as [-> ->]. by left.
    + right. rewrite app_comm_cons, (assoc_L (++)) in Heq. apply app_inj_tail in Heq as [-> ->]. split.
      * intros d'. apply Hno. set_solver.
      * exists h1, o1, h2. split; [done|]. split; [done|]. intros o' d' ?. apply Hno. set_solver.
  - intros [Hd|[Hno (h1 & o1 & h2 & -> & Hd & Hno2)]].
    + exists os, o, []. split; [done|]. split; [done|]. by intros o' d' ?%elem_of_nil.
    + exists h1, o1, (h2 ++ [o]). split; [by rewrite app_comm_cons, (assoc_L (++))|]. split; [done|].
      intros o' d' [?|Ho]%elem_of_app; [by apply Hno2|]. apply elem_of_list_singleton in Ho as ->. apply Hno.
Qed.
Lemma not_explicit_snoc os o n : not_explicit (os ++ [o]) n ↔ (∀ d, ¬ defines n o d) ∧ not_explicit os n.
Proof.
  unfold not_explicit. split.
  - intros H. split; intros; apply H; set_solver.
  - intros [H1 H2] o' d [?|Ho]%elem_of_app; [by apply H2|]. apply elem_of_list_singleton in Ho as ->. apply H1.
Qed.

Record binv (os : list op) (flags0 : gset bytes) (st : gset bytes * builder) : Prop := BInv {
  bi_some : ∀ n d, funcs st.2 !! n = Some d ↔ explicitly os n d;
  bi_none : ∀ n, funcs st.2 !! n = None ↔ not_explicit os n;
  bi_req : ∀ n, n ∈ required st.2 ↔ ORequired n ∈ os;
  bi_opt : ∀ n, n ∈ optional st.2 ↔ OOptional n ∈ os;
  bi_flags : required st.2 ∪ optional st.2 ⊆ st.1;
  bi_disj : ∀ n, n ∈ required st.2 → n ∈ optional st.2 → False;
  bi_parsed : parsed st.2 = false }.
Lemma binv_ops os flags0 : ∀ st, apply_ops os (flags0, new_builder) = Some st → binv os flags0 st.
Proof.
  induction os as [|o os IH] using rev_ind; intros st.
  - intros [= <-]. split; simpl.
    + intros n d. rewrite lookup_empty. split; [done|]. intros (h1 & o & h2 & Heq & _). by destruct h1.
    + intros n. rewrite lookup_empty. split; [|done]. by intros _ o d ?%elem_of_nil.
    + set_solver.
    + set_solver.
    + set_solver.
    + set_solver.
    + done.
  - rewrite apply_ops_app. destruct (apply_ops os (flags0, new_builder)) as [[flags b]|]; [|done]. specialize (IH _ eq_refl).
    cbn [apply_ops]. destruct (apply_op o (flags, b)) as [st'|] eqn:Ho; [|done]. intros [= <-]. destruct IH as [H1 H2 H3 H4 H5 H6 H7].
    cbn [fst snd] in *. destruct o as [m v|m k|m|m]; cbn [apply_op] in Ho; repeat case_bool_decide; simplify_eq; split; cbn [fst snd define funcs required optional parsed]; try done;
      try (intros n d; rewrite explicitly_snoc); try (intros n; rewrite not_explicit_snoc).
    + destruct (decide (m = n)) as [->|]; [rewrite lookup_insert; simpl; naive_solver|]. rewrite lookup_insert_ne by done. rewrite H1. simpl. naive_solver.
    + destruct (decide (m = n)) as [->|]; [rewrite lookup_insert; simpl; naive_solver|]. rewrite lookup_insert_ne by done. rewrite H2. simpl. naive_solver.
    + set_solver.
    + set_solver.
    + destruct (decide (m = n)) as [->|]; [rewrite lookup_insert; simpl; naive_solver|]. rewrite lookup_insert_ne by done. rewrite H1. simpl. naive_solver.
    + destruct (decide (m = n)) as [->|]; [rewrite lookup_insert; simpl; naive_solver|]. rewrite lookup_insert_ne by done. rewrite H2. simpl. naive_solver.
    + set_solver.
    + set_solver.
    + rewrite H1. simpl. naive_solver.
    + rewrite H2. simpl. naive_solver.
    + set_solver.
    + set_solver.
    + set_solver.
    + set_solver.
    + rewrite H1. simpl. naive_solver.
    + rewrite H2. simpl. naive_solver.
    + set_solver.
    + set_solver.
    + set_solver.
    + set_solver.
Qed.

Lemma parse_required_lookup w b m n : funcs (parse_required w b m) !! n =
  match funcs b !! n with
  | Some d => Some d
  | None => if decide (m = n) then
              if bool_decide (flag_value w n ≠ []) then Some (DValue (flag_value w n))
              else if bool_decide (env_value w n ≠ []) then Some (DValue (env_value w n)) else None
            else None
  end.
Proof.
  unfold parse_required. destruct (decide (m = n)) as [->|].
  - destruct (funcs b !! n) eqn:Hn; [done|]. repeat case_bool_decide; simpl; rewrite ?lookup_insert; done.
  - destruct (funcs b !! m); [by destruct (funcs b !! n)|]. repeat case_bool_decide; simpl; rewrite ?lookup_insert_ne by done; by destruct (funcs b !! n).
Qed.
Lemma parse_optional_lookup w b m n : funcs (parse_optional w b m) !! n =
  match funcs b !! n with
  | Some d => Some d
  | None => if decide (m = n) then
              Some (if bool_decide (flag_value w n ≠ []) then DValue (flag_value w n)
                    else if bool_decide (env_value w n ≠ []) then DValue (env_value w n) else DUnset)
            else None
  end.
Proof.
  unfold parse_optional. destruct (decide (m = n)) as [->|].
  - destruct (funcs b !! n) eqn:Hn; [done|]. repeat case_bool_decide; simpl; rewrite ?lookup_insert; done.
  - destruct (funcs b !! m); [by destruct (funcs b !! n)|]. repeat case_bool_decide; simpl; rewrite ?lookup_insert_ne by done; by destruct (funcs b !! n).
Qed.
Lemma parse_required_all w ro b n : funcs (foldl (parse_required w) b ro) !! n =
  match funcs b !! n with
  | Some d => Some d
  | None => if decide (n ∈ ro) then
              if bool_decide (flag_value w n ≠ []) then Some (DValue (flag_value w n))
              else if bool_decide (env_value w n ≠ []) then Some (DValue (env_value w n)) else None
            else None
  end.
Proof.
  revert b. induction ro as [|m ro IH]; intros b; cbn [foldl].
  - destruct (funcs b !! n); [done|]. by rewrite decide_False by set_solver.
  - rewrite IH, parse_required_lookup. destruct (funcs b !! n); [done|]. repeat (case_decide || case_bool_decide); try done; set_solver.
Qed.
Lemma parse_optional_all w oo b n : funcs (foldl (parse_optional w) b oo) !! n =
  match funcs b !! n with
  | Some d => Some d
  | None => if decide (n ∈ oo) then
              Some (if bool_decide (flag_value w n ≠ []) then DValue (flag_value w n)
                    else if bool_decide (env_value w n ≠ []) then DValue (env_value w n) else DUnset)
            else None
  end.
Proof.
  revert b. induction oo as [|m oo IH]; intros b; cbn [foldl].
  - destruct (funcs b !! n); [done|]. by rewrite decide_False by set_solver.
  - rewrite IH, parse_optional_lookup. destruct (funcs b !! n); [done|]. repeat (case_decide || case_bool_decide); try done; set_solver.
Qed.

Lemma flag_given w n : flag_value w n ≠ [] ↔ ∃ v, cmd w n = Some v ∧ v ≠ [].
Proof. unfold flag_value. destruct (cmd w n) as [v|]; simpl; naive_solver. Qed.
Lemma flag_absent w n : flag_value w n = [] ↔ cmd w n = None ∨ cmd w n = Some [].
Proof. unfold flag_value. destruct (cmd w n) as [v|]; simpl; naive_solver. Qed.
Lemma env_absent w n : env_value w n = [] ↔ env w (runtime_env_var n) = None ∨ env w (runtime_env_var n) = Some [].
Proof. unfold env_value. destruct (env w (runtime_env_var n)) as [v|]; simpl; naive_solver. Qed.
(** The specification as a function. *)
Lemma argument_fn os flags0 st w n r : apply_ops os (flags0, new_builder) = Some st →
  argument os w n r ↔
  r = match funcs st.2 !! n with
      | Some d => Some d
      | None => if bool_decide (flag_value w n ≠ []) then Some (DValue (flag_value w n))
                else if bool_decide (env_value w n ≠ []) then Some (DValue (env_value w n)) else None
      end.
Proof.
  intros Hops%binv_ops. split.
  - intros [d Hex|v Hn Hc Hv|v Hn Hc He Hv|Hn Hc He].
    + apply (bi_some _ _ _ Hops) in Hex. by rewrite Hex.
    + apply (bi_none _ _ _ Hops) in Hn. rewrite Hn. unfold flag_value. rewrite Hc. simpl. by rewrite bool_decide_true.
    + apply (bi_none _ _ _ Hops) in Hn. rewrite Hn. apply flag_absent in Hc. rewrite Hc, bool_decide_false by (by intros ?).
      unfold env_value. rewrite He. simpl. by rewrite bool_decide_true.
    + apply (bi_none _ _ _ Hops) in Hn. rewrite Hn. apply flag_absent in Hc. apply env_absent in He. rewrite Hc, He.
      by rewrite !bool_decide_false by (by intros ?).
  - intros ->. destruct (funcs st.2 !! n) as [d|] eqn:Hn.
    + apply arg_explicit. by apply (bi_some _ _ _ Hops).
    + apply (bi_none _ _ _ Hops) in Hn. case_bool_decide as Hf.
      * unfold flag_value in *. destruct (cmd w n) as [v|] eqn:Hc; [|done]. simpl in *. by apply arg_flag.
      * apply flag_absent in Hf. case_bool_decide as He.
        -- unfold env_value in *. destruct (env w (runtime_env_var n)) as [v|] eqn:Hc; [|done]. simpl in *. by apply arg_env.
        -- apply env_absent in He. by apply arg_none.
Qed.
Lemma argument_exists os flags0 st w n : apply_ops os (flags0, new_builder) = Some st → ∃ r, argument os w n r.
Proof. intros H. eexists. by apply (argument_fn _ _ _ _ _ _ H). Qed.

Lemma build_spec os flags0 flags b w ro oo : apply_ops os (flags0, new_builder) = Some (flags, b) →
  order_of ro (required b) → order_of oo (optional b) →
  match (build w ro oo b).2 with
  | Missing ms => ms ≠ [] ∧ NoDup ms ∧ ∀ n, n ∈ ms ↔ ORequired n ∈ os ∧ argument os w n None
  | Built defs =>
      (∀ n, ORequired n ∈ os → ¬ argument os w n None) ∧
      (∀ n r, ORequired n ∈ os ∨ OOptional n ∈ os → argument os w n r → get_arg defs n = r) ∧
      (∀ n, ORequired n ∉ os → OOptional n ∉ os → not_explicit os n → get_arg defs n = None)
  end.
Proof.
  intros Hops [Hnr Hro] [Hno Hoo]. pose proof (binv_ops _ _ _ Hops) as Hinv. pose proof Hinv as [H1 H2 H3 H4 H5 H6 H7]. cbn [fst snd] in *.
  pose proof (λ n r, argument_fn _ _ _ w n r Hops) as Harg. cbn [fst snd] in Harg.
  assert (∀ n, n ∈ ro ↔ ORequired n ∈ os) as Hro' by (intros n; rewrite Hro; apply H3).
  assert (∀ n, n ∈ oo ↔ OOptional n ∈ os) as Hoo' by (intros n; rewrite Hoo; apply H4).
  assert (∀ n, funcs (parse_flags w ro oo b) !! n =
    match funcs b !! n with
    | Some d => Some d
    | None => if bool_decide (n ∈ ro ∨ n ∈ oo) then
                if bool_decide (flag_value w n ≠ []) then Some (DValue (flag_value w n))
                else if bool_decide (env_value w n ≠ []) then Some (DValue (env_value w n)) else if bool_decide (n ∈ oo) then Some DUnset else None
              else None
    end) as Hpf.
  { intros n. unfold parse_flags. rewrite H7, parse_optional_all, parse_required_all. cbn [funcs]. destruct (funcs b !! n); [done|].
    repeat (case_decide || case_bool_decide); try done; naive_solver. }
  assert (∀ n, n ∈ missing ro [] (parse_flags w ro oo b) ↔ ORequired n ∈ os ∧ argument os w n None) as Hm.
  { intros n. unfold missing. rewrite elem_of_list_filter, Hpf, Harg, Hro'. split.
    - intros [[Hnone _] Hin]. split; [done|]. destruct (funcs b !! n); [done|]. rewrite bool_decide_true in Hnone by (left; by apply Hro').
      repeat case_bool_decide; done.
    - intros [Hin Hnone]. split; [|done]. split; [|constructor]. destruct (funcs b !! n); [done|]. rewrite bool_decide_true by (left; by apply Hro').
      repeat case_bool_decide; try done. exfalso. apply (H6 n); [by apply H3|by apply Hoo]. }
  unfold build. cbn [snd]. destruct (missing ro [] (parse_flags w ro oo b)) as [|m ms] eqn:Hms.
  - split; [|split].
    + intros n Hreq Hnone. apply (not_elem_of_nil n), Hm. done.
    + intros n r Hin Ha. assert (¬ (ORequired n ∈ os ∧ argument os w n None)) as Hnm by (by intros ?%Hm%elem_of_nil).
      pose proof Ha as Ha'. apply Harg in Ha as ->. unfold get_arg. rewrite Hpf. destruct (funcs b !! n) as [d|] eqn:Hn.
      * apply H1 in Hn. assert (d ≠ DUnset); [|by destruct d]. destruct Hn as (h1 & o & h2 & _ & Hd & _). by eapply defines_not_unset.
      * rewrite bool_decide_true by (rewrite Hro', Hoo'; done). repeat (case_bool_decide; [done|]).
        destruct Hin; [by destruct Hnm|]. rewrite <- Hoo' in *. done.
    + intros n Hnr' Hno' Hne. unfold get_arg. rewrite Hpf. apply H2 in Hne. rewrite Hne.
      rewrite bool_decide_false; [done|]. rewrite Hro', Hoo'. naive_solver.
  - split; [done|]. split; [|by rewrite <- Hms in *]. rewrite <- Hms. by apply NoDup_filter.
Qed.

(** A second build consults neither flags nor environment. *)
Lemma parse_flags_parsed w ro oo b : parsed (parse_flags w ro oo b) = true.
Proof.
  assert (∀ l b, parsed (foldl (parse_required w) b l) = parsed b) as H1.
  { induction l as [|n l IH]; intros b'; simpl; [done|]. rewrite IH. unfold parse_required. repeat case_match; done. }
  assert (∀ l b, parsed (foldl (parse_optional w) b l) = parsed b) as H2.
  { induction l as [|n l IH]; intros b'; simpl; [done|]. rewrite IH. unfold parse_optional. repeat case_match; done. }
  unfold parse_flags. destruct (parsed b) eqn:?; [done|]. by rewrite H2, H1.
Qed.
Lemma second_build_pure b w w' ro oo : parsed b = true → build w ro oo b = build w' ro oo b.
Proof. intros H. unfold build, parse_flags. by rewrite H. Qed.

Lemma build_with_parent_spec os flags0 flags b parents ro : apply_ops os (flags0, new_builder) = Some (flags, b) →
  order_of ro (required b) →
  match build_with_parent parents ro b with
  | Missing ms => ms ≠ [] ∧ NoDup ms ∧ ∀ n, n ∈ ms ↔ ORequired n ∈ os ∧ not_explicit os n ∧ ∀ p, p ∈ parents → n ∉ p
  | Built defs =>
      (∀ n, ORequired n ∈ os → (∃ d, explicitly os n d) ∨ ∃ p, p ∈ parents ∧ n ∈ p) ∧
      (∀ n d, defs !! n = Some d ↔ explicitly os n d)
  end.
Proof.
  intros Hops [Hnr Hro]. pose proof (binv_ops _ _ _ Hops) as [H1 H2 H3 H4 H5 H6 H7]. cbn [fst snd] in *.
  assert (∀ n, n ∈ missing ro parents b ↔ ORequired n ∈ os ∧ not_explicit os n ∧ ∀ p, p ∈ parents → n ∉ p) as Hm.
  { intros n. unfold missing. rewrite elem_of_list_filter, H2, Hro, H3, Forall_forall. naive_solver. }
  unfold build_with_parent. destruct (missing ro parents b) as [|m ms] eqn:Hms.
  - split; [|done]. intros n Hreq. destruct (funcs b !! n) as [d|] eqn:Hn; [left; exists d; by apply H1|]. right.
    destruct (decide (Exists (λ p : gset bytes, n ∈ p) parents)) as [Hex|Hnex].
    + apply Exists_exists in Hex. done.
    + exfalso. apply (not_elem_of_nil n). apply Hm. split; [done|]. split; [by apply H2|]. intros p Hp Hin. apply Hnex, Exists_exists. eauto.
  - split; [done|]. split; [|by rewrite <- Hms in *]. rewrite <- Hms. by apply NoDup_filter.
Qed.
