(** * Proofs about the options of wiring definitions *)
From Verif Require Import Wiring_Model Wiring_Spec Wiring_Proof WiringOpts_Spec.

Section proofs.
  Context {T B V : Type}.
  Notation op := (op T B V).

  (** The options stored under [n], blank if there is no definition. *)
  Definition opts_at (s : spec T B V) (n : string) : wopts T :=
    match sp_defs s !! n with Some d => wd_opts d | None => WOpts None false end.

  Lemma opts_at_run (h : list op) n :
    opts_at (run h) n = WOpts (ret_newest_first (rev h) n) (proxy_newest_first (rev h) n).
  Proof.
    induction h as [|o h IH] using rev_ind; [done|].
    rewrite run_snoc, rev_app_distr. simpl rev. rewrite <- app_comm_cons. simpl app.
    unfold opts_at in *.
    destruct o as [n' t b o c|a p|n' k v|n' k v]; simpl step.
    - unfold define, get_def_create.
      destruct (decide (n' = n)) as [->|Hne].
      + assert (Ho : ∀ od, match sp_defs (run h) !! n with Some d => wd_opts d | None => WOpts None false end = od →
          sp_defs (define (run h) n t b o c) !! n
            = (match sp_defs (run h) !! n with Some d => Some (WDef (wd_name d) t b (<["callsite":=[c]]> (wd_props d)) (define_opts od o t)) | None => Some (WDef n t b (<["callsite":=[c]]> ∅) (define_opts od o t)) end)).
        { intros od <-. unfold define, get_def_create.
          destruct (sp_defs (run h) !! n) as [d|] eqn:Hd; simpl; by rewrite lookup_insert. }
        specialize (Ho _ IH). unfold define, get_def_create in Ho. rewrite Ho. clear Ho IH.
        destruct (sp_defs (run h) !! n); simpl; unfold define_opts; destruct o as [[[r|] pr]|]; simpl;
          rewrite !bool_decide_eq_true_2 by done; try done; by destruct (ret_newest_first _ _).
      + destruct (sp_defs (run h) !! n') eqn:Hd; simpl; rewrite ?lookup_insert_ne by done; rewrite IH;
          destruct o; simpl; rewrite ?bool_decide_eq_false_2 by done; done.
    - simpl. destruct (decide (a = n)) as [->|Hne].
      + rewrite lookup_delete, !bool_decide_eq_true_2; done.
      + rewrite lookup_delete_ne, !bool_decide_eq_false_2; done.
    - simpl. rewrite <- IH. unfold set_property, get_def_create.
      destruct (decide (n' = n)) as [->|Hne];
        [destruct (sp_defs (run h) !! n) eqn:Hd | destruct (sp_defs (run h) !! n') eqn:Hd];
        simpl; rewrite ?lookup_insert; rewrite ?lookup_insert_ne by done; rewrite ?Hd; done.
    - simpl. rewrite <- IH. unfold add_property, get_def_create.
      destruct (decide (n' = n)) as [->|Hne];
        [destruct (sp_defs (run h) !! n) eqn:Hd | destruct (sp_defs (run h) !! n') eqn:Hd];
        simpl; rewrite ?lookup_insert; rewrite ?lookup_insert_ne by done; rewrite ?Hd; done.
  Qed.

  Lemma options_of_history (h : list op) n d f :
    n ∈ defs (run h) → get_def (S f) (run h) n = Some (Some d) →
    wo_proxy (wd_opts d) = proxy_newest_first (rev h) n ∧
    wo_ret (wd_opts d) = ret_newest_first (rev h) n.
  Proof.
    intros [d' Hd]%elem_defs Hg. rewrite (get_def_direct _ n d' f Hd (run_excl h)) in Hg.
    simplify_eq. pose proof (opts_at_run h n) as Ho. unfold opts_at in Ho. rewrite Hd in Ho.
    by rewrite Ho.
  Qed.
End proofs.
