(** * Proofs about the compiler command line *)
From Verif Require Import Cmd_Model Cmd_Spec.
From Coq Require Import Lia ZifyN ZifyNat.

Section proofs.
  Context {SP E IR : Type}.
  Notation spec_option := (spec_option SP E).
  Notation pass := (pass SP E IR).

  Lemma registry_selects (specs : list spec_option) (r : gmap string spec_option) w s :
    fold_left (fun r s => <[so_name s := s]> r) specs r !! w = Some s ↔
    selects specs w s ∨ (r !! w = Some s ∧ ∀ x, x ∈ specs → so_name x ≠ w).
  Proof.
    induction specs as [|x specs IH] using rev_ind.
    - cbn. split; [intros Hr; right; split; [done|]; intros x Hx; by apply elem_of_nil in Hx|].
      intros [(b&a&He&_)|[? _]]; [by destruct b|done].
    - rewrite fold_left_app. cbn. destruct (decide (so_name x = w)) as [Hw|Hw].
      + subst w. rewrite lookup_insert. split.
        * intros [= ->]. left. exists specs, []. split_and!; [done|done|].
          intros y Hy. by apply elem_of_nil in Hy.
        * intros [(b&a&He&Hn&Ha)|[_ Hno]].
          -- destruct a as [|z a _] using rev_ind.
             ++ apply app_inj_tail in He as [_ ->]. done.
             ++ rewrite app_comm_cons, app_assoc in He. apply app_inj_tail in He as [_ ->].
                exfalso. apply (Ha z); [set_solver|done].
          -- exfalso. apply (Hno x); [set_solver|done].
      + rewrite lookup_insert_ne by done. rewrite IH. split.
        * intros [(b&a&->&Hn&Ha)|[Hr Hno]].
          -- left. exists b, (a ++ [x]). split_and!; [by rewrite <- app_assoc|done|set_solver].
          -- right. split; [done|set_solver].
        * intros [(b&a&He&Hn&Ha)|[Hr Hno]].
          -- left. destruct a as [|z a _] using rev_ind.
             ++ apply app_inj_tail in He as [_ ->]. done.
             ++ rewrite app_comm_cons, app_assoc in He. apply app_inj_tail in He as [-> ->].
                exists b, a. split_and!; [done|done|set_solver].
          -- right. split; [done|set_solver].
  Qed.

  Lemma selects_fun (specs : list spec_option) w s s' :
    selects specs w s → selects specs w s' → s = s'.
  Proof.
    intros H1 H2.
    assert (Ha := proj2 (registry_selects specs ∅ w s) (or_introl H1)).
    assert (Hb := proj2 (registry_selects specs ∅ w s') (or_introl H2)). congruence.
  Qed.

  Lemma run_passes_ok (w : wspec SP E) (ps : list pass) ir ir' ev :
    run_passes w ps ir = (ir', true, ev) → passes_succeed w ps ir ir'.
  Proof.
    revert ir ir' ev. induction ps as [|p ps IH]; intros ir ir' ev; cbn.
    - intros [= -> <-]. constructor.
    - destruct (pa_analyze p w ir) as [ir1 [e|m]] eqn:Hp; [done|].
      destruct (run_passes w ps ir1) as [[ir2 ok] ev2] eqn:Hr. intros [= -> -> <-].
      econstructor; [done|]. by eapply IH.
  Qed.

  Lemma run_passes_complete (w : wspec SP E) (ps : list pass) ir ir' :
    passes_succeed w ps ir ir' →
    run_passes w ps ir = (ir', true, (fun p => EvPass (pa_name p)) <$> ps).
  Proof. induction 1 as [|p r ir ir1 ir2 m Hp _ IH]; cbn; [done|]. by rewrite Hp, IH. Qed.

  Lemma run_passes_events (w : wspec SP E) (ps : list pass) ir ir' ok ev :
    run_passes w ps ir = (ir', ok, ev) →
    ∃ k, ev = (fun p => EvPass (pa_name p)) <$> take k ps ∧ (ok = true → k = length ps).
  Proof.
    revert ir ir' ok ev. induction ps as [|p ps IH]; intros ir ir' ok ev; cbn.
    - intros [= _ <- <-]. exists 0. done.
    - destruct (pa_analyze p w ir) as [ir1 [e|m]] eqn:Hp.
      + intros [= _ <- <-]. exists 1. cbn. rewrite take_0. done.
      + destruct (run_passes w ps ir1) as [[ir2 ok2] ev2] eqn:Hr. intros [= -> -> <-].
        destruct (IH _ _ _ _ Hr) as (k&->&Hk). exists (S k). split; [done|].
        intros Ho. cbn. by rewrite Hk.
  Qed.

  Context (empty : SP) (build_ir : SP → list string → IR * option E)
          (generate : string → IR → option N → option E).
  Notation mae := (make_and_execute empty build_ir generate).

  Lemma mae_unfold (ps : list pass) specs f :
    mae ps specs f =
      if bool_decide (fl_o f = "") then (1, []) else
      if bool_decide (fl_w f = "") then (1, []) else
      match fold_left (fun r s => <[so_name s := s]> r) specs (∅ : gmap string spec_option) !! fl_w f with
      | None => (1, [])
      | Some s =>
          let '(ok, ev) := build empty build_ir generate
            (Builder (fl_o f) (fl_w f) (fl_env f) (fl_port f `mod` 65536)%N (Some s) ps
               (fold_left (fun r s => <[so_name s := s]> r) specs ∅)) in
          (if ok : bool then 0 else 2, ev)
      end.
  Proof.
    unfold make_and_execute, validate_args, parse_args, add. cbn.
    destruct (bool_decide (fl_o f = "")); [done|]. destruct (bool_decide (fl_w f = "")); [done|].
    destruct (_ !! fl_w f); done.
  Qed.

  Lemma generates_iff (ps : list pass) specs f d ir p :
    EvGenerate d ir p ∈ (mae ps specs f).2 ↔
    compiles empty build_ir ps specs f ir ∧ d = fl_o f ∧ p = port_of f.
  Proof.
    rewrite mae_unfold. unfold compiles.
    case_bool_decide as Ho; [cbn; rewrite elem_of_nil; naive_solver|].
    case_bool_decide as Hw; [cbn; rewrite elem_of_nil; naive_solver|].
    destruct (_ !! fl_w f) as [s|] eqn:Hs.
    2:{ cbn. rewrite elem_of_nil. split; [done|]. intros [(_&_&s&_&_&_&Hsel&_) _].
        rewrite (proj2 (registry_selects specs ∅ (fl_w f) s) (or_introl Hsel)) in Hs. done. }
    apply registry_selects in Hs as [Hsel|[Hx _]]; [|by rewrite lookup_empty in Hx].
    unfold build. cbn. destruct (so_build s (WSpec empty [])) as [w [e|nodes]] eqn:Hb.
    { cbn. split; [intros Hin; apply elem_of_list_singleton in Hin; done|].
      intros [(_&_&s'&w'&n'&ir'&Hsel'&Hb'&_) _]. rewrite (selects_fun _ _ _ _ Hsel' Hsel) in Hb'. congruence. }
    destruct (build_ir (ws_defs w) nodes) as [ir0 [e|]] eqn:Hi.
    { cbn. split; [intros Hin; rewrite !elem_of_cons, elem_of_nil in Hin; naive_solver|].
      intros [(_&_&s'&w'&n'&ir'&Hsel'&Hb'&Hi'&_) _]. rewrite (selects_fun _ _ _ _ Hsel' Hsel) in Hb'. congruence. }
    destruct (run_passes w ps ir0) as [[ir1 ok] evp] eqn:Hp.
    assert (Hnp : EvGenerate d ir p ∉ evp).
    { destruct (run_passes_events _ _ _ _ _ _ Hp) as (k&->&_). intros (x&Hx&_)%elem_of_list_fmap. done. }
    destruct ok.
    - assert (Hin : EvGenerate d ir p ∈ [EvSpec (so_name s)] ++ [EvBuildIR nodes] ++ evp ++ [EvGenerate (fl_o f) ir1 (port_of f)]
        ↔ ir = ir1 ∧ d = fl_o f ∧ p = port_of f).
      { rewrite !elem_of_app, !elem_of_list_singleton. naive_solver. }
      assert (Hc : compiles empty build_ir ps specs f ir1).
      { split_and!; [done|done|]. exists s, w, nodes, ir0. split_and!; [done..|]. by eapply run_passes_ok. }
      assert (Hiff : EvGenerate d ir p ∈ [EvSpec (so_name s)] ++ [EvBuildIR nodes] ++ evp ++ [EvGenerate (fl_o f) ir1 (port_of f)]
         ↔ compiles empty build_ir ps specs f ir ∧ d = fl_o f ∧ p = port_of f).
      { rewrite Hin. split; [intros (->&?&?); done|]. intros [(_&_&s'&w'&n'&ir'&Hsel'&Hb'&Hi'&Hps) [??]].
        split; [|done]. rewrite (selects_fun _ _ _ _ Hsel' Hsel) in Hb'.
        assert (w' = w) as -> by congruence. assert (n' = nodes) as -> by congruence.
        assert (ir' = ir0) as -> by congruence. apply run_passes_complete in Hps. congruence. }
      unfold port_of in *. destruct (generate _ _ _); cbn in *; exact Hiff.
    - cbn. split.
      + intros Hin. rewrite !elem_of_cons in Hin. naive_solver.
      + intros [(_&_&s'&w'&n'&ir'&Hsel'&Hb'&Hi'&Hps) _].
        rewrite (selects_fun _ _ _ _ Hsel' Hsel) in Hb'.
        assert (w' = w) as -> by congruence. assert (n' = nodes) as -> by congruence.
        assert (ir' = ir0) as -> by congruence. apply run_passes_complete in Hps. congruence.
  Qed.

  Lemma exit_zero_iff (ps : list pass) specs f :
    (mae ps specs f).1 = 0 ↔
    ∃ ir, compiles empty build_ir ps specs f ir ∧ generate (fl_o f) ir (port_of f) = None.
  Proof.
    rewrite mae_unfold. unfold compiles.
    case_bool_decide as Ho; [cbn; naive_solver|].
    case_bool_decide as Hw; [cbn; naive_solver|].
    destruct (_ !! fl_w f) as [s|] eqn:Hs.
    2:{ cbn. split; [done|]. intros (ir&(_&_&s&_&_&_&Hsel&_)&_).
        rewrite (proj2 (registry_selects specs ∅ (fl_w f) s) (or_introl Hsel)) in Hs. done. }
    apply registry_selects in Hs as [Hsel|[Hx _]]; [|by rewrite lookup_empty in Hx].
    unfold build. cbn. destruct (so_build s (WSpec empty [])) as [w [e|nodes]] eqn:Hb.
    { cbn. split; [done|]. intros (ir&(_&_&s'&w'&n'&ir'&Hsel'&Hb'&_)&_).
      rewrite (selects_fun _ _ _ _ Hsel' Hsel) in Hb'. congruence. }
    destruct (build_ir (ws_defs w) nodes) as [ir0 [e|]] eqn:Hi.
    { cbn. split; [done|]. intros (ir&(_&_&s'&w'&n'&ir'&Hsel'&Hb'&Hi'&_)&_).
      rewrite (selects_fun _ _ _ _ Hsel' Hsel) in Hb'. congruence. }
    destruct (run_passes w ps ir0) as [[ir1 ok] evp] eqn:Hp. destruct ok.
    - pose proof (run_passes_ok _ _ _ _ _ Hp) as Hps. fold (port_of f).
      destruct (generate (fl_o f) ir1 (port_of f)) eqn:Hg; cbn.
      + split; [done|]. intros (ir&(_&_&s'&w'&n'&ir'&Hsel'&Hb'&Hi'&Hps')&Hg').
        rewrite (selects_fun _ _ _ _ Hsel' Hsel) in Hb'.
        assert (w' = w) as -> by congruence. assert (n' = nodes) as -> by congruence.
        assert (ir' = ir0) as -> by congruence.
        apply run_passes_complete in Hps'. congruence.
      + split; [|done]. intros _. exists ir1. split; [|done]. split_and!; [done|done|].
        exists s, w, nodes, ir0. done.
    - cbn. split; [done|]. intros (ir&(_&_&s'&w'&n'&ir'&Hsel'&Hb'&Hi'&Hps')&Hg').
      rewrite (selects_fun _ _ _ _ Hsel' Hsel) in Hb'.
        assert (w' = w) as -> by congruence. assert (n' = nodes) as -> by congruence.
        assert (ir' = ir0) as -> by congruence.
      apply run_passes_complete in Hps'. congruence.
  Qed.

  Lemma exit_one_iff (ps : list pass) specs f :
    (mae ps specs f).1 = 1 ↔ fl_o f = "" ∨ fl_w f = "" ∨ ∀ s, s ∈ specs → so_name s ≠ fl_w f.
  Proof.
    rewrite mae_unfold.
    case_bool_decide as Ho; [cbn; naive_solver|].
    case_bool_decide as Hw; [cbn; naive_solver|].
    destruct (_ !! fl_w f) as [s|] eqn:Hs.
    - apply registry_selects in Hs as [(b&a&->&Hn&_)|[Hx _]]; [|by rewrite lookup_empty in Hx].
      destruct (build _ _ _ _) as [[] ?]; cbn; (split; [done|]); intros [?|[?|Hno]]; try done;
        exfalso; apply (Hno s); [set_solver|done|set_solver|done].
    - cbn. split; [|done]. intros _. right; right. intros s Hin Hn.
      apply elem_of_list_split in Hin as (l1&l2&->).
      revert Hs. rewrite eq_None_not_Some. intros Hnot. apply Hnot.
      rewrite fold_left_app. cbn. clear Hnot.
      assert (Hgen : ∀ (l : list spec_option) (r : gmap string spec_option), is_Some (r !! fl_w f) →
        is_Some (fold_left (fun r s => <[so_name s := s]> r) l r !! fl_w f)).
      { clear. induction l as [|x l IH]; intros r Hr; cbn; [done|]. apply IH.
        destruct (decide (so_name x = fl_w f)) as [->|Hne]; [by rewrite lookup_insert|].
        by rewrite lookup_insert_ne. }
      apply Hgen. rewrite <- Hn, lookup_insert. done.
  Qed.

  (** Nothing runs twice, nothing runs out of order. *)
  Lemma stages_in_order (ps : list pass) specs f :
    ∃ s nodes ir k, (mae ps specs f).2 `prefix_of`
      ([EvSpec s; EvBuildIR nodes : event IR] ++ ((fun p : pass => (EvPass (pa_name p) : event IR)) <$> take k ps) ++
       [EvGenerate (fl_o f) ir (port_of f)]) ∧
      ((∃ d i p, EvGenerate d i p ∈ (mae ps specs f).2) → k = length ps).
  Proof using empty build_ir generate.
    rewrite mae_unfold.
    assert (Hnil : ∀ ir0 : IR, ∃ s nodes ir k, [] `prefix_of`
      ([EvSpec s; EvBuildIR nodes : event IR] ++ ((fun p : pass => (EvPass (pa_name p) : event IR)) <$> take k ps) ++
       [EvGenerate (fl_o f) ir (port_of f)]) ∧
      ((∃ d i p, EvGenerate d i p ∈ ([] : list (event IR))) → k = length ps)).
    { intros ir0. exists "", [], ir0, 0. split; [apply prefix_nil|]. intros (?&?&?&Hx). by apply elem_of_nil in Hx. }
    pose (irX := (build_ir empty []).1).
    case_bool_decide as Ho; [exact (Hnil irX)|].
    case_bool_decide as Hw; [exact (Hnil irX)|].
    destruct (_ !! fl_w f) as [s|] eqn:Hs; [|exact (Hnil irX)].
    unfold build. cbn [cb_spec cb_passes cb_env cb_port cb_out].
    destruct (so_build s (WSpec empty [])) as [w [e|nodes]] eqn:Hb.
    { exists (so_name s), [], irX, 0. cbn. split; [by eexists|]. intros (?&?&?&Hx). by apply elem_of_list_singleton in Hx. }
    destruct (build_ir (ws_defs w) nodes) as [ir0 [e|]] eqn:Hi.
    { exists (so_name s), nodes, irX, 0. cbn. split; [by eexists|]. intros (?&?&?&Hx).
      rewrite !elem_of_cons, elem_of_nil in Hx. naive_solver. }
    destruct (run_passes w ps ir0) as [[ir1 ok] evp] eqn:Hp.
    destruct (run_passes_events _ _ _ _ _ _ Hp) as (k&->&Hk).
    fold (port_of f).
    exists (so_name s), nodes, ir1, k. destruct ok.
    - assert (Hpre : ([EvSpec (so_name s)] ++ [EvBuildIR nodes]) ++ ((fun p : pass => (EvPass (pa_name p) : event IR)) <$> take k ps) ++ [EvGenerate (fl_o f) ir1 (port_of f)]
         = [EvSpec (so_name s); EvBuildIR nodes] ++ ((fun p : pass => (EvPass (pa_name p) : event IR)) <$> take k ps) ++ [EvGenerate (fl_o f) ir1 (port_of f)]) by done.
      destruct (generate (fl_o f) ir1 (port_of f)); cbn -[take fmap app]; rewrite Hpre; (split; [reflexivity|]); intros _; by apply Hk.
    - cbn -[take fmap app]. split.
      + exists [EvGenerate (fl_o f) ir1 (port_of f)]. by rewrite <- !app_assoc.
      + intros (d&i&p&Hx). exfalso. rewrite !elem_of_app, !elem_of_list_singleton in Hx.
        destruct Hx as [[?|?]|Hx]; [done..|]. apply elem_of_list_fmap in Hx as (?&?&_). done.
  Qed.

  Lemma err_of_history (s : wspec SP E) es :
    ws_errs s = [] →
    err (add_errors s es) = (if bool_decide (length es = 0) then None else Some es) ∧
    ws_defs (add_errors s es) = ws_defs s.
  Proof.
    intros Hs.
    assert (Hgen : ∀ s' : wspec SP E, ws_errs (add_errors s' es) = ws_errs s' ++ es ∧ ws_defs (add_errors s' es) = ws_defs s').
    { unfold add_errors. induction es as [|e es IH]; intros s'; cbn; [by rewrite app_nil_r|].
      destruct (IH (add_error s' e)) as [-> ->]. cbn. by rewrite <- app_assoc. }
    destruct (Hgen s) as [He Hd]. split; [|done]. unfold err. rewrite He, Hs. cbn. by destruct es.
  Qed.
End proofs.
