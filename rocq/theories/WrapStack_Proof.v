(** * Proofs about wrapper stacks *)
From Verif Require Export WrapStack_Spec.
Set Default Proof Using "Type".

(** ** Interfaces *)
Lemma cut_last_app {A} (l : list A) x : cut_last (l ++ [x]) = Some l.
Proof. induction l as [|y l IH]; [done|]. change ((y :: l) ++ [x]) with (y :: (l ++ [x])). cbn [cut_last]. rewrite IH. destruct l; done. Qed.
Lemma shrink_extend m f : shrink m (extend m f) = Some f.
Proof. destruct m, f as [a r]; cbn; rewrite ?cut_last_app; cbn; rewrite ?cut_last_app; done. Qed.
Lemma all_some_fmap_Some {A} (m : gmap string A) : all_some (Some <$> m) = Some m.
Proof.
  unfold all_some. rewrite decide_True.
  - f_equal. apply map_eq. intros k. rewrite lookup_omap, lookup_fmap. by destruct (m !! k).
  - intros k o. rewrite lookup_fmap_Some. intros (x & <- & _). done.
Qed.
Lemma all_some_None {A} (m : gmap string (option A)) k : m !! k = Some None → all_some m = None.
Proof. intros H. unfold all_some. rewrite decide_False; [done|]. intros HF. by destruct (HF _ _ H). Qed.
Lemma shrink_all m (ms : gmap string func) : all_some (shrink m <$> (extend m <$> ms)) = Some ms.
Proof.
  rewrite <- map_fmap_compose. assert (((shrink m) ∘ (extend m)) <$> ms = Some <$> ms) as ->; [|apply all_some_fmap_Some].
  apply map_fmap_ext. intros; apply shrink_extend.
Qed.

Lemma server_methods m i :
  i_methods (server_iface m i) = match m with Health => <["Health" := Func [] ["string"]]> (i_methods i) | _ => extend m <$> i_methods i end.
Proof. destruct m; try done. cbn. rewrite (map_fmap_ext _ id), map_fmap_id; done. Qed.

Lemma client_iface_ctx m w i :
  m ≠ Health → i_methods w = i_methods (server_iface m i) → ∃ own, client_iface m w = Some own ∧ i_methods own = i_methods i.
Proof.
  intros Hm Hw. rewrite server_methods in Hw.
  destruct m; try done; cbn [client_iface]; try (rewrite Hw, shrink_all; cbn; by eexists).
  exists w. split; [done|]. rewrite Hw. cbn. rewrite (map_fmap_ext _ id), map_fmap_id; done.
Qed.

Lemma too_late_cons m ms : health_too_late (m :: ms) ↔ (passes_context m ∧ Health ∈ ms) ∨ health_too_late ms.
Proof.
  split.
  - intros (l1 & c & l2 & l3 & E & Hc). destruct l1 as [|y l1]; cbn in E; injection E as -> E.
    + left. split; [done|]. rewrite E. set_solver.
    + right. by exists l1, c, l2, l3.
  - intros [[Hc Hin]|(l1 & c & l2 & l3 & -> & Hc)].
    + apply elem_of_list_split in Hin as (l2 & l3 & ->). by exists [], m, l2, l3.
    + by exists (m :: l1), c, l2, l3.
Qed.
Lemma not_too_late_nil : ¬ health_too_late [].
Proof. intros ([] & ? & ? & ? & ? & _); done. Qed.

Lemma promised_cons m ms i : (passes_context m → Health ∉ ms) →
  promised ms (i_methods (server_iface m i)) = match m with Health => i_methods (server_iface Health i) | Plain => promised ms (i_methods i) | _ => i_methods (server_iface m i) end.
Proof.
  intros H. unfold promised. destruct m; cbn [server_iface i_methods].
  1-3: rewrite decide_False; [done|]; apply H; unfold passes_context; auto.
  - destruct (decide (Health ∈ ms)); [|done]. by rewrite insert_insert.
  - done.
Qed.

Lemma consumer_ok mods : ∀ i, ¬ health_too_late mods →
  ∃ own, consumer_iface mods i = Some own ∧ i_methods own = promised mods (i_methods i).
Proof.
  unfold consumer_iface, client_side, server_side. induction mods as [|m ms IH]; intros i Hl.
  { exists i. split; [done|]. by unfold promised. }
  rewrite too_late_cons in Hl. cbn [foldr foldl].
  destruct (IH (server_iface m i)) as (own & -> & Hown); [tauto|]. cbn [mbind option_bind].
  rewrite promised_cons in Hown by tauto. destruct m.
  1-3: edestruct client_iface_ctx as (own' & -> & E); [|exact Hown|]; [done|]; exists own'; split; [done|]; rewrite E;
       unfold promised; rewrite decide_False; [done|]; rewrite elem_of_cons; intros [?|?]; [done|]; apply Hl; left; split; [unfold passes_context; auto|done].
  - exists own. split; [done|]. rewrite Hown. unfold promised. rewrite decide_True by set_solver. done.
  - exists own. split; [done|]. rewrite Hown. unfold promised.
    destruct (decide (Health ∈ ms)), (decide (Health ∈ Plain :: ms)); set_solver.
Qed.

Lemma consumer_base mods : ∀ i own, consumer_iface mods i = Some own → i_base own = i_base i.
Proof.
  unfold consumer_iface, client_side, server_side. induction mods as [|m ms IH]; intros i own; cbn [foldr foldl].
  { by intros [= <-]. }
  destruct (foldr _ _ ms) as [w|] eqn:E; [|done]. cbn [mbind option_bind]. intros H. specialize (IH (server_iface m i) w). rewrite E in IH.
  specialize (IH eq_refl). destruct m; cbn in *; try (destruct (all_some _); simplify_eq/=); simplify_eq/=; done.
Qed.

Lemma health_empty ms : ∀ i own, Health ∈ ms → consumer_iface ms i = Some own → i_methods own !! "Health" = Some (Func [] ["string"]).
Proof.
  unfold consumer_iface, client_side, server_side. induction ms as [|m ms IH]; intros i own Hin; [by apply elem_of_nil in Hin|].
  cbn [foldr foldl]. destruct (foldr _ _ ms) as [w|] eqn:E; [|done]. cbn [mbind option_bind]. intros H.
  destruct (decide (Health ∈ ms)) as [Hms|Hms].
  - specialize (IH (server_iface m i) w Hms E).
    destruct m; cbn in H; try (by simplify_eq); rewrite (all_some_None _ "Health") in H; try done; by rewrite lookup_fmap, IH.
  - assert (m = Health) as -> by (apply elem_of_cons in Hin as [?|?]; done). cbn in H. injection H as <-.
    destruct (consumer_ok ms (server_iface Health i)) as (own & E' & Hown).
    { intros (l1 & c & l2 & l3 & -> & _). set_solver. }
    unfold consumer_iface, client_side, server_side in E'. rewrite E in E'. injection E' as <-. rewrite Hown. unfold promised.
    rewrite decide_False by done. cbn. by rewrite lookup_insert.
Qed.

Lemma consumer_panics mods : ∀ i, health_too_late mods → consumer_iface mods i = None.
Proof.
  induction mods as [|m ms IH]; intros i Hl; [by apply not_too_late_nil in Hl|].
  rewrite too_late_cons in Hl. specialize (IH (server_iface m i)).
  pose proof (health_empty ms (server_iface m i)) as He.
  unfold consumer_iface, client_side, server_side in *. cbn [foldr foldl].
  destruct Hl as [[Hc Hin]|Hl]; [|by rewrite IH].
  destruct (foldr _ _ ms) as [w|] eqn:E; [|done]. specialize (He w Hin eq_refl). cbn [mbind option_bind].
  destruct m; cbn; try (by destruct Hc as [?|[?|?]]); rewrite (all_some_None _ "Health"); try done; by rewrite lookup_fmap, He.
Qed.

Lemma structs_none mods : ∀ i, client_structs mods i = None ↔ consumer_iface mods i = None.
Proof.
  unfold consumer_iface, client_side, server_side. induction mods as [|m ms IH]; intros i; [done|].
  cbn [client_structs foldr foldl]. specialize (IH (server_iface m i)).
  unfold client_side, server_side in *.
  destruct (client_structs ms (server_iface m i)) as [l|], (foldr _ _ ms) as [w|]; cbn [mbind option_bind];
    try (by destruct IH as [H1 H2]; (discriminate (H1 eq_refl) || discriminate (H2 eq_refl)));
    destruct m; cbn [mbind option_bind]; try done.
  all: cbn; destruct (all_some _); done.
Qed.

(** ** The generated code *)
Fixpoint no_us (s : string) : bool := match s with "" => true | String c s => negb (Ascii.eqb c (Ascii.ascii_of_nat 95)) && no_us s end.
Lemma no_us_go x : ∀ s, no_us s = true → no_us (pretty_N_go x s) = true.
Proof.
  induction (N.lt_wf_0 x) as [x _ IH]. intros s Hs. destruct (decide (0 < x)%N) as [Hx|Hx].
  - rewrite pretty_N_go_step by done. apply IH; [apply N.div_lt; lia|]. cbn [no_us]. rewrite Hs, andb_true_r.
    unfold pretty_N_char. by repeat case_match.
  - assert (x = 0%N) as -> by lia. by rewrite pretty_N_go_0.
Qed.
Lemma no_us_pretty (k : nat) : no_us (pretty k) = true.
Proof. unfold pretty, pretty_nat, pretty, pretty_N. case_decide; [done|]. by apply no_us_go. Qed.
Lemma ret_name_us k s : no_us s = false → ret_name k ≠ "ret" +:+ s.
Proof. intros Hs H. unfold ret_name in H. cbn in H. injection H as H. pose proof (no_us_pretty k). congruence. Qed.
Lemma ret_name_inj k l : ret_name k = ret_name l → k = l.
Proof. unfold ret_name. cbn. intros H. injection H as H. by apply (inj pretty) in H. Qed.
Lemma ret_names_nodup f : NoDup (ret_names f).
Proof. unfold ret_names. apply (NoDup_fmap_2_strong ret_name); [intros ? ? _ _; apply ret_name_inj|apply NoDup_seq]. Qed.
Lemma ret_names_length f : length (ret_names f) = length (f_rets f).
Proof. unfold ret_names. by rewrite fmap_length, seq_length. Qed.
Lemma ret_vars_fst f : (ret_vars f).*1 = ret_names f.
Proof. unfold ret_vars. apply fst_zip. rewrite ret_names_length. lia. Qed.
Lemma ret_vars_snd f : (ret_vars f).*2 = f_rets f.
Proof. unfold ret_vars. apply snd_zip. rewrite ret_names_length. lia. Qed.
Lemma elem_of_ret_names x f : x ∈ ret_names f → ∃ k, x = ret_name k.
Proof. unfold ret_names. intros (k & -> & _)%elem_of_list_fmap. by exists k. Qed.
(** The names that the generated code uses are not those of results *)
Definition fixed_names : list string :=
  ["handler"; "ctx"; "err"; "traceCtx"; "tp"; "tr"; "span"; "trace_ctx"; "baggage"; "ret_baggage"; "ret_baggage_raw"; "baggage_raw";
   "govecctx"; "govecret"; "govec_bytes"; "govec_ret"].
Lemma ret_name_fixed k : ret_name k ∉ fixed_names.
Proof.
  unfold fixed_names. rewrite !elem_of_cons, elem_of_nil. intros H.
  repeat (destruct H as [H|H]; [first [discriminate H|by apply (ret_name_us k "_baggage") in H|by apply (ret_name_us k "_baggage_raw") in H]|]). done.
Qed.
Lemma ret_names_fixed f x : x ∈ ret_names f → x ∉ fixed_names.
Proof. intros (k & ->)%elem_of_ret_names. apply ret_name_fixed. Qed.

Lemma find_nodup {A} (l : list (string * A)) x t :
  NoDup l.*1 → (x, t) ∈ l → List.find (λ p, bool_decide (p.1 = x)) l = Some (x, t).
Proof.
  induction l as [|[y u] l IH]; intros Hnd Hin; [by apply elem_of_nil in Hin|]. cbn [List.find fst].
  cbn in Hnd. apply NoDup_cons in Hnd as [Hy Hnd]. apply elem_of_cons in Hin as [[= -> ->]|Hin].
  - by rewrite bool_decide_true.
  - rewrite bool_decide_false; [by apply IH|]. intros ->. apply Hy. apply elem_of_list_fmap. by exists (x, t).
Qed.
Lemma lookup_ty_nodup l x t : NoDup l.*1 → (x, t) ∈ l → lookup_ty x l = Some t.
Proof. intros ? ?. unfold lookup_ty. by rewrite (find_nodup _ _ t). Qed.
Lemma mapM_lookup {A} (g : string → option A) (l : list (string * A)) :
  (∀ x t, (x, t) ∈ l → g x = Some t) → mapM g l.*1 = Some l.*2.
Proof.
  induction l as [|[x t] l IH]; intros H; [done|]. cbn. rewrite (H x t) by set_solver. cbn.
  change (mapM g l.*1) with (mapM g (l.*1)). rewrite IH; [done|]. intros; apply H; set_solver.
Qed.
Lemma mapM_map {A B C} (g : B → option C) (h : A → B) l : mapM g (h <$> l) = mapM (g ∘ h) l.
Proof. induction l as [|x l IH]; [done|]. cbn. destruct (g (h x)); [|done]. cbn. by rewrite IH. Qed.
Lemma mapM_app {A B} (g : A → option B) l1 l2 : mapM g (l1 ++ l2) = (r1 ← mapM g l1; r2 ← mapM g l2; Some (r1 ++ r2)).
Proof.
  induction l1 as [|x l IH]; cbn; [by destruct (mapM g l2)|]. destruct (g x); cbn; [|done]. rewrite IH.
  destruct (mapM g l); cbn; [|done]. by destruct (mapM g l2).
Qed.

Definition common : list string := [""; "_"; "handler"; "ctx"].
Definition sres (m : modifier) : list string :=
  match m with
  | OT => ["traceCtx"; "tp"; "tr"; "span"; "err"; "backend"; "trace"; "nil"]
  | XTr => ["baggage"; "ret_baggage"; "ret_baggage_raw"; "err"; "tracingplane"; "nil"]
  | GoVec => ["govecctx"; "govecret"; "err"]
  | Health | Plain => []
  end.
Definition cres (m : modifier) : list string :=
  match m with
  | OT => ["tp"; "tr"; "span"; "trace_ctx"; "err"; "trace"; "string"; "nil"]
  | XTr => ["baggage_raw"; "baggage"; "ret_baggage"; "ret_baggage_raw"; "err"; "tracingplane"; "string"; "nil"]
  | GoVec => ["govec_bytes"; "govec_ret"; "err"; "byte"]
  | Health | Plain => []
  end.
Lemma reserved_split m x : x ∈ reserved m ↔ x ∈ common ∨ x ∈ sres m ∨ x ∈ cres m.
Proof. destruct m; cbn; set_solver. Qed.

Definition no_ret (f : func) : Prop := ∀ k, ret_name k ∉ arg_names f.
Lemma declared_iff f fixed D :
  D ≡ₚ arg_names f ++ ret_names f ++ fixed → NoDup fixed → fixed ⊆ fixed_names → no_ret f →
  NoDup D ↔ NoDup (arg_names f) ∧ ∀ x, x ∈ arg_names f → x ∉ fixed.
Proof.
  intros HD Hnd Hsub Hnr. rewrite HD, !NoDup_app. setoid_rewrite not_elem_of_app. split.
  - intros (H1 & H2 & _). split; [done|]. intros x Hx. by apply H2.
  - intros [H1 H2]. split_and!; [done| |apply ret_names_nodup| |done].
    + intros x Hx. split; [|by apply H2]. intros (k & ->)%elem_of_ret_names. by apply (Hnr k).
    + intros x Hx Hf. apply (ret_names_fixed _ _ Hx). by apply Hsub.
Qed.
Lemma declared_iff_plain f fixed D :
  D ≡ₚ arg_names f ++ fixed → NoDup fixed → NoDup D ↔ NoDup (arg_names f) ∧ ∀ x, x ∈ arg_names f → x ∉ fixed.
Proof. intros HD Hnd. rewrite HD, !NoDup_app. tauto. Qed.

Lemma scope_nodup g : NoDup (declared g) → NoDup (scope g).*1.
Proof.
  intros H. assert (declared g ≡ₚ (scope g).*1 ++ "handler" :: "ctx" :: (if g_named g then ["err"] else [])) as E.
  { unfold declared, scope. rewrite !fmap_app. destruct (g_named g); cbn; solve_Permutation. }
  rewrite E in H. by apply NoDup_app in H as [H _].
Qed.
Lemma scope_params g x t : NoDup (declared g) → (x, t) ∈ g_params g → lookup_ty x (scope g) = Some t.
Proof. intros H Hin. apply lookup_ty_nodup; [by apply scope_nodup|]. unfold scope. set_solver. Qed.
Lemma scope_results g x t : NoDup (declared g) → g_named g = true → (x, t) ∈ g_results g → lookup_ty x (scope g) = Some t.
Proof. intros H Hn Hin. apply lookup_ty_nodup; [by apply scope_nodup|]. unfold scope. rewrite Hn. set_solver. Qed.
Lemma scope_vars g x t : NoDup (declared g) → (x, t) ∈ g_vars g → lookup_ty x (scope g) = Some t.
Proof. intros H Hin. apply lookup_ty_nodup; [by apply scope_nodup|]. unfold scope. set_solver. Qed.

Lemma arg_vars_types g f : NoDup (declared g) → f_args f ⊆ g_params g → mapM (expr_ty g) (arg_vars f) = Some (f_args f).*2.
Proof.
  intros H Hsub. unfold arg_vars. assert (EVar ∘ fst <$> f_args f = EVar <$> (f_args f).*1) as -> by by rewrite list_fmap_compose.
  rewrite mapM_map. apply mapM_lookup. intros x t Hin. cbn. apply scope_params; [done|]. by apply Hsub.
Qed.
Lemma ret_names_types g f : NoDup (declared g) → g_named g = true → ret_vars f ⊆ g_results g →
  mapM (λ x, lookup_ty x (scope g)) (ret_names f) = Some (f_rets f).
Proof.
  intros H Hn Hsub. rewrite <- ret_vars_fst, <- ret_vars_snd at 1. apply mapM_lookup. intros x t Hin.
  apply scope_results; [done|done|]. by apply Hsub.
Qed.

Lemma names_forall (l : list (string * ty)) (P : string → Prop) : Forall (λ p, P p.1) l ↔ ∀ x, x ∈ l.*1 → P x.
Proof.
  rewrite Forall_forall. split.
  - intros H x ([y t] & -> & Hin)%elem_of_list_fmap. by apply (H (y, t)).
  - intros H [x t] Hin. apply H. apply elem_of_list_fmap. by exists (x, t).
Qed.
Lemma decide_nodup (l : list string) : bool_decide (NoDup l) = true → NoDup l.
Proof. apply bool_decide_eq_true. Qed.

Lemma unnamed_snd (l : list ty) : (pair "" <$> l).*2 = l.
Proof. induction l as [|t l IH]; [done|]. cbn. by f_equal. Qed.

Lemma server_method_ok m n f w :
  m ≠ Plain → w !! n = Some f → no_ret f →
  method_ok w (server_method m n f) ↔ NoDup (arg_names f) ∧ ∀ x, x ∈ arg_names f → x ∉ common ∧ x ∉ sres m.
Proof.
  intros Hm Hw Hnr. unfold method_ok.
  rewrite (names_forall _ (λ x, x ≠ "" ∧ x ≠ "_" ∧ x ∉ g_uses (server_method m n f))).
  assert (Hdec : NoDup (declared (server_method m n f)) ↔ NoDup (arg_names f) ∧ ∀ x, x ∈ arg_names f → x ∉
    match m with OT => ["handler"; "ctx"; "traceCtx"; "err"; "tp"; "tr"; "span"] | XTr => ["handler"; "ctx"; "baggage"; "ret_baggage"; "err"; "ret_baggage_raw"]
      | GoVec => ["handler"; "ctx"; "govecctx"; "govecret"; "err"] | _ => ["handler"; "ctx"] end).
  { destruct m; try done.
    1-3: apply declared_iff; [|by apply decide_nodup|set_solver|done]; unfold declared; cbn; rewrite !fmap_app, ret_vars_fst; cbn; unfold arg_names; solve_Permutation.
    apply declared_iff_plain; [|by apply decide_nodup]. unfold declared; cbn. rewrite app_nil_r. unfold arg_names; solve_Permutation. }
  split.
  - intros (Hnd & Hp & _). apply Hdec in Hnd as [Hnd Hf]. split; [done|]. intros x Hx. specialize (Hf x Hx). specialize (Hp x).
    destruct m; try done; cbn in *; rewrite ?fmap_app in Hp; cbn in *; unfold arg_names, common in *; set_solver.
  - intros [Hnd Hx]. assert (NoDup (declared (server_method m n f))) as Hd.
    { apply Hdec. split; [done|]. intros x Hin. specialize (Hx x Hin). destruct m; try done; unfold common in *; cbn in *; set_solver. }
    split; [done|]. split.
    + intros x Hin. specialize (Hx x). destruct m; try done; cbn in *; rewrite ?fmap_app in Hin; cbn in *; unfold arg_names, common in *; set_solver.
    + unfold code_ok. destruct m; try done; cbn [server_method g_code]; exists f; (split; [done|]).
      1-3: split; [apply arg_vars_types; [done|]; cbn; set_solver|]; split; [apply ret_names_types; [done|done|]; cbn; set_solver|].
      * done.
      * repeat constructor. apply scope_results; [done|done|]. cbn. set_solver.
      * repeat constructor. apply scope_results; [done|done|]. cbn. set_solver.
      * split; [apply arg_vars_types; [done|]; cbn; set_solver|]. cbn [g_results]. by rewrite unnamed_snd.
Qed.

Lemma mapM_one {A B} (g : A → option B) x y : g x = Some y → mapM g [x] = Some [y].
Proof. intros H. cbn. by rewrite H. Qed.

Lemma client_method_ok m n f w :
  m ≠ Plain → m ≠ Health → w !! n = Some (extend m f) → no_ret f →
  method_ok w (client_method m n f) ↔ NoDup (arg_names f) ∧ ∀ x, x ∈ arg_names f → x ∉ common ∧ x ∉ cres m.
Proof.
  intros Hm Hm' Hw Hnr. unfold method_ok.
  rewrite (names_forall _ (λ x, x ≠ "" ∧ x ≠ "_" ∧ x ∉ g_uses (client_method m n f))).
  assert (Hdec : NoDup (declared (client_method m n f)) ↔ NoDup (arg_names f) ∧ ∀ x, x ∈ arg_names f → x ∉
    match m with OT => ["handler"; "ctx"; "err"; "span"; "tp"; "tr"; "trace_ctx"] | XTr => ["handler"; "ctx"; "err"; "baggage_raw"; "baggage"; "ret_baggage"; "ret_baggage_raw"]
      | _ => ["handler"; "ctx"; "err"; "govec_bytes"; "govec_ret"] end).
  { destruct m; try done.
    all: apply declared_iff; [|by apply decide_nodup|set_solver|done]; unfold declared; cbn; rewrite ret_vars_fst; cbn; unfold arg_names; solve_Permutation. }
  split.
  - intros (Hnd & Hp & _). apply Hdec in Hnd as [Hnd Hf]. split; [done|]. intros x Hx. specialize (Hf x Hx). specialize (Hp x).
    destruct m; try done; cbn in *; unfold arg_names, common in *; set_solver.
  - intros [Hnd Hx]. assert (NoDup (declared (client_method m n f))) as Hd.
    { apply Hdec. split; [done|]. intros x Hin. specialize (Hx x Hin). destruct m; try done; unfold common in *; cbn in *; set_solver. }
    split; [done|]. split.
    + intros x Hin. specialize (Hx x). destruct m; try done; cbn in *; unfold arg_names, common in *; set_solver.
    + unfold code_ok. destruct m; try done; cbn [client_method g_code]; eexists; (split; [exact Hw|]).
      all: split; [rewrite mapM_app, arg_vars_types by (done || (cbn; set_solver)); cbn; by rewrite fmap_app|]; split; [|done].
      * apply (ret_names_types _ f); [done|done|]; cbn; set_solver.
      * rewrite mapM_app, ret_names_types by (done || (cbn; set_solver)). rewrite (mapM_one _ _ "string"); [done|].
        apply scope_vars; [done|]. cbn; set_solver.
      * rewrite mapM_app, ret_names_types by (done || (cbn; set_solver)). rewrite (mapM_one _ _ "[]byte"); [done|].
        apply scope_vars; [done|]. cbn; set_solver.
Qed.

(** *** Structs *)
Lemma server_names m i :
  (server_struct m i).(s_methods).*1 = (map_to_list (i_methods i)).*1 ++ match m with Health => ["Health"] | _ => [] end.
Proof.
  cbn. rewrite fmap_app. f_equal; [|by destruct m]. change (@map) with (@fmap list list_fmap). rewrite <- list_fmap_compose.
  apply list_fmap_ext. by intros ? [n f] _.
Qed.
Lemma struct_server_ok m i :
  m ≠ Plain → (∀ n f, i_methods i !! n = Some f → no_ret f) →
  struct_ok (server_struct m i) ↔ (m = Health → i_methods i !! "Health" = None) ∧
    ∀ n f, i_methods i !! n = Some f → NoDup (arg_names f) ∧ ∀ x, x ∈ arg_names f → x ∉ common ∧ x ∉ sres m.
Proof.
  intros Hm Hnr. unfold struct_ok. rewrite server_names, NoDup_app.
  assert (Hin : ∀ n, n ∈ (map_to_list (i_methods i)).*1 ↔ is_Some (i_methods i !! n)).
  { intros n. rewrite elem_of_list_fmap. split.
    - intros ([n' f] & -> & H%elem_of_map_to_list). by exists f.
    - intros [f H]. exists (n, f). split; [done|]. by apply elem_of_map_to_list. }
  assert (HF : Forall (λ p, method_ok (s_field (server_struct m i)) p.2) (s_methods (server_struct m i)) ↔
    ∀ n f, i_methods i !! n = Some f → NoDup (arg_names f) ∧ ∀ x, x ∈ arg_names f → x ∉ common ∧ x ∉ sres m).
  { cbn [server_struct s_methods s_field]. rewrite Forall_app. rewrite Forall_map, Forall_forall. split.
    - intros [H _] n f Hf. specialize (H (n, f)). cbn in H. apply (server_method_ok m n f (i_methods i)); [done|done|by eapply Hnr|].
      apply H. by apply elem_of_map_to_list.
    - intros H. split.
      + intros [n f] Hf. apply elem_of_map_to_list in Hf. cbn. apply server_method_ok; [done|done|by eapply Hnr|]. by eapply H.
      + destruct m; try done. repeat constructor; cbn; set_solver. }
  rewrite HF. split.
  - intros ((_ & H & _) & H2 & _). split; [|done]. intros ->. destruct (i_methods i !! "Health") eqn:E; [|done].
    exfalso. apply (H "Health"); [|set_solver]. apply Hin. by eexists.
  - intros [H1 H2]. split; [|split; [done|]].
    + split; [apply NoDup_fst_map_to_list|]. split; [|destruct m; try apply NoDup_nil_2; by apply NoDup_singleton].
      intros n Hn. apply Hin in Hn as [f Hf]. destruct m; set_solver.
    + intros n f Hf. by exists f.
Qed.

Lemma struct_client_ok m own srv w i :
  m ≠ Plain → m ≠ Health → i_methods own = i_methods i → i_methods srv = extend m <$> i_methods i → i_methods w = i_methods srv →
  (∀ n f, i_methods i !! n = Some f → no_ret f) →
  struct_ok (client_struct m own srv w) ↔
    ∀ n f, i_methods i !! n = Some f → NoDup (arg_names f) ∧ ∀ x, x ∈ arg_names f → x ∉ common ∧ x ∉ cres m.
Proof.
  intros Hm Hm' Hown Hsrv Hw Hnr. unfold struct_ok. cbn [client_struct s_methods s_field s_given]. rewrite Hown, Hw.
  assert (HF : Forall (λ p, method_ok (i_methods srv) p.2) (map (λ '(n, f), (n, client_method m n f)) (map_to_list (i_methods i))) ↔
    ∀ n f, i_methods i !! n = Some f → NoDup (arg_names f) ∧ ∀ x, x ∈ arg_names f → x ∉ common ∧ x ∉ cres m).
  { rewrite Forall_map, Forall_forall. split.
    - intros H n f Hf. specialize (H (n, f)). cbn in H. apply (client_method_ok m n f (i_methods srv)); [done|done| |by eapply Hnr|].
      { by rewrite Hsrv, lookup_fmap, Hf. } apply H. by apply elem_of_map_to_list.
    - intros H [n f] Hf. apply elem_of_map_to_list in Hf. cbn. apply client_method_ok; [done|done| |by eapply Hnr|by eapply H].
      by rewrite Hsrv, lookup_fmap, Hf. }
  rewrite HF. split; [tauto|]. intros H. split; [|split; [done|]].
  - change (@map) with (@fmap list list_fmap). rewrite <- list_fmap_compose.
    assert ((fst ∘ (λ '(n, f), (n, client_method m n f))) <$> map_to_list (i_methods i) = (map_to_list (i_methods i)).*1) as ->.
    { apply list_fmap_ext. by intros ? [n f] _. } apply NoDup_fst_map_to_list.
  - intros n f Hf. by exists f.
Qed.

(** *** All of it *)
Definition clean_for (m : modifier) (i : iface) : Prop :=
  ∀ n f, i_methods i !! n = Some f → NoDup (arg_names f) ∧ ∀ x, x ∈ arg_names f → x ∉ common ∧ x ∉ sres m ∧ x ∉ cres m.
Fixpoint clean (mods : list modifier) (i : iface) : Prop :=
  match mods with
  | [] => True
  | m :: ms => (m ≠ Plain → clean_for m i ∧ (m = Health → i_methods i !! "Health" = None)) ∧ clean ms (server_iface m i)
  end.
Definition nr (i : iface) : Prop := ∀ n f, i_methods i !! n = Some f → no_ret f.
Lemma extend_names m f :
  arg_names (extend m f) = arg_names f ++ match m with OT => ["traceCtx"] | XTr => ["baggage"] | GoVec => ["govecctx"] | _ => [] end.
Proof. unfold arg_names. destruct m; cbn; rewrite ?fmap_app, ?app_nil_r; done. Qed.
Lemma server_lookup m i n f' : i_methods (server_iface m i) !! n = Some f' →
  (∃ f, i_methods i !! n = Some f ∧ f' = extend m f) ∨ (m = Health ∧ n = "Health" ∧ f' = Func [] ["string"]).
Proof.
  rewrite server_methods. destruct m; cbn.
  1-3,5: rewrite lookup_fmap_Some; intros (f & <- & Hf); left; by exists f.
  rewrite lookup_insert_Some. intros [[<- <-]|[_ Hf]]; [by right|]. left. exists f'. done.
Qed.
Lemma nr_server m i : nr i → nr (server_iface m i).
Proof.
  intros H n f' Hf k. apply server_lookup in Hf as [(f & Hf & ->)|(-> & -> & ->)]; [|cbn; set_solver].
  rewrite extend_names. pose proof (H n f Hf k). destruct m; rewrite elem_of_app, ?elem_of_list_singleton, ?elem_of_nil; intros [?|Hk]; try done.
Qed.

Lemma some_cons {A} (P : A → Prop) x l :
  (∃ l', Some (x :: l) = Some l' ∧ Forall P l') ↔ P x ∧ ∃ l', Some l = Some l' ∧ Forall P l'.
Proof.
  split.
  - intros (l' & [= <-] & H). apply Forall_cons in H as [? ?]. split; [done|]. by eexists.
  - intros (Hx & l' & [= <-] & H). eexists. split; [done|]. by apply Forall_cons.
Qed.
Lemma compiles_clean mods : ∀ i, nr i → ¬ health_too_late mods → compiles mods i ↔ clean mods i.
Proof.
  unfold compiles. induction mods as [|m ms IH]; intros i Hnr Hl.
  { cbn. split; [done|]. intros _. split; [constructor|]. by exists []. }
  rewrite too_late_cons in Hl. specialize (IH (server_iface m i) (nr_server _ _ Hnr) ltac:(tauto)).
  destruct (decide (m = Plain)) as [->|Hp].
  { cbn [server_structs client_structs clean]. cbn [server_iface] in *.
    assert (H : (∃ l, (l ← client_structs ms i; Some l) = Some l ∧ Forall struct_ok l) ↔ ∃ l, client_structs ms i = Some l ∧ Forall struct_ok l) by (by destruct (client_structs ms i)).
    rewrite H, IH. split; [|tauto]. intros Hc. split; [done|done]. }
  assert (server_structs (m :: ms) i = server_struct m i :: server_structs ms (server_iface m i)) as -> by by destruct m.
  rewrite Forall_cons, (struct_server_ok _ _ Hp Hnr). cbn [client_structs clean]. rewrite <- IH.
  destruct (decide (m = Health)) as [->|Hh].
  { assert (H : (∃ l, (l ← client_structs ms (server_iface Health i); Some l) = Some l ∧ Forall struct_ok l) ↔
       ∃ l, client_structs ms (server_iface Health i) = Some l ∧ Forall struct_ok l) by (by destruct (client_structs _ _)).
    rewrite H. unfold clean_for. cbn [sres cres]. split.
    - intros (([H1 H2] & H3) & H4). split; [|done]. intros _. split; [|done]. intros n f Hf. destruct (H2 n f Hf) as [Hnd Hx].
      split; [done|]. intros x Hin. specialize (Hx x Hin). set_solver.
    - intros (H1 & H3 & H4). destruct (H1 ltac:(done)) as [H5 H6]. split; [|done]. split; [|done]. split; [done|].
      intros n f Hf. destruct (H5 n f Hf) as [Hnd Hx]. split; [done|]. intros x Hin. specialize (Hx x Hin). tauto. }
  destruct (consumer_ok ms (server_iface m i) ltac:(tauto)) as (w & Hw & Ew). unfold consumer_iface in Hw.
  assert (Hnh : Health ∉ ms) by (intros ?; apply Hl; left; split; [|done]; destruct m; unfold passes_context; naive_solver).
  unfold promised in Ew. rewrite decide_False in Ew by done.
  destruct (client_iface_ctx m w i Hh Ew) as (own & Hown & Eown).
  assert (Esrv : i_methods (server_iface m i) = extend m <$> i_methods i) by (rewrite server_methods; by destruct m).
  pose proof (struct_client_ok m own (server_iface m i) w i Hp Hh Eown Esrv Ew Hnr) as Hc.
  assert (H : (∃ l, (l ← client_structs ms (server_iface m i); match m with Health | Plain => Some l
        | _ => w ← client_side ms (server_side ms (server_iface m i)); own ← client_iface m w; Some (client_struct m own (server_iface m i) w :: l) end) = Some l ∧ Forall struct_ok l) ↔
     struct_ok (client_struct m own (server_iface m i) w) ∧ ∃ l, client_structs ms (server_iface m i) = Some l ∧ Forall struct_ok l).
  { rewrite Hw. cbn [mbind option_bind]. rewrite Hown. destruct (client_structs ms (server_iface m i)) as [l|]; cbn [mbind option_bind]; [|naive_solver].
    destruct m; try done; apply some_cons. }
  rewrite H, Hc. unfold clean_for. split.
  - intros (([H1 H2] & H3) & H4 & H5). split; [|done]. intros _. split; [|by intros ->]. intros n f Hf. destruct (H2 n f Hf) as [Hnd Hx].
    split; [done|]. intros x Hin. destruct (Hx x Hin), (H4 n f Hf) as [_ Hx']. specialize (Hx' x Hin). tauto.
  - intros (H1 & H3 & H4). destruct (H1 Hp) as [H5 _]. split; [split; [|done]|split; [|done]].
    + split; [by intros ->|]. intros n f Hf. destruct (H5 n f Hf) as [Hnd Hx]. split; [done|]. intros x Hin. specialize (Hx x Hin). tauto.
    + intros n f Hf. destruct (H5 n f Hf) as [Hnd Hx]. split; [done|]. intros x Hin. specialize (Hx x Hin). tauto.
Qed.

Lemma own_name m m' x : x ∈ match m with OT => ["traceCtx"] | XTr => ["baggage"] | GoVec => ["govecctx"] | _ => [] end →
  (x ∈ sres m ∧ x ∉ common) ∧ (m ≠ m' → x ∉ sres m' ∧ x ∉ cres m').
Proof. destruct m, m'; cbn; set_solver. Qed.
Lemma once_cons m ms : once (m :: ms) ↔ (m ≠ Plain → m ∉ ms) ∧ once ms.
Proof.
  unfold once. destruct (decide (m = Plain)) as [->|Hm].
  - rewrite filter_cons_False by naive_solver. split; [intros Ho; split; [done|done]|tauto].
  - rewrite filter_cons_True by done. rewrite NoDup_cons, elem_of_list_filter. tauto.
Qed.
Lemma clean_for_up m m' i : m ≠ m' → (m = Health → i_methods i !! "Health" = None) → (m ≠ Plain → clean_for m i) → clean_for m' i → clean_for m' (server_iface m i).
Proof.
  intros Hne Hh Hm Hm' n f' Hf. apply server_lookup in Hf as [(f & Hf & ->)|(-> & -> & ->)]; [|cbn; split; [constructor|set_solver]].
  rewrite extend_names. destruct (Hm' n f Hf) as [Hnd Hx]. split.
  - apply NoDup_app. split; [done|]. split.
    + intros x Hin Hown. destruct (decide (m = Plain)) as [->|Hp]; [set_solver|]. destruct (Hm Hp n f Hf) as [_ Hy].
      destruct (Hy x Hin) as (_ & Hs & _). by apply (own_name m m') in Hown as [[? _] _].
    + destruct m; try apply NoDup_nil_2; apply NoDup_singleton.
  - intros x [Hin|Hown]%elem_of_app; [by apply Hx|]. apply (own_name m m') in Hown as [[_ Hc] Ho]. split; [done|]. by apply Ho.
Qed.
Lemma clean_for_down m m' i : (m = Health → i_methods i !! "Health" = None) → clean_for m' (server_iface m i) → clean_for m' i.
Proof.
  intros Hh H n f Hf. destruct (H n (extend m f)) as [Hnd Hx].
  { rewrite server_methods. destruct m; try by rewrite lookup_fmap, Hf. rewrite lookup_insert_ne; [done|]. intros <-. rewrite Hh in Hf; done. }
  rewrite extend_names in *. split; [by apply NoDup_app in Hnd as [? _]|]. intros x Hin. apply Hx. set_solver.
Qed.
Lemma clean_iff mods : ∀ i, i_methods i ≠ ∅ →
  clean mods i ↔ (∀ m, m ∈ mods → m ≠ Plain → clean_for m i) ∧ once mods ∧ health_free mods i.
Proof.
  induction mods as [|m ms IH]; intros i Hne.
  { cbn. split; [|done]. intros _. split; [set_solver|]. split; [constructor|]. by intros ?%elem_of_nil. }
  cbn [clean].
  assert (Hne' : i_methods (server_iface m i) ≠ ∅).
  { rewrite server_methods. destruct m; try (intros E; by apply fmap_empty_inv in E). apply insert_non_empty. }
  rewrite (IH _ Hne'), once_cons. unfold health_free. split.
  - intros (H1 & H2 & H3 & H4).
    assert (Hh : m = Health → i_methods i !! "Health" = None) by (intros ->; by apply H1).
    assert (Hnin : m ≠ Plain → m ∉ ms).
    { intros Hp Hin. destruct (decide (m = Health)) as [->|Hnh].
      - specialize (H4 Hin). cbn in H4. by rewrite lookup_insert in H4.
      - specialize (H2 m Hin Hp). apply map_choose in Hne as (n & f & Hf). destruct (H2 n (extend m f)) as [_ Hx].
        { rewrite server_methods. destruct m; try done; by rewrite lookup_fmap, Hf. }
        rewrite extend_names in Hx. destruct m; try done; cbn [sres cres] in Hx.
        + specialize (Hx "traceCtx"). set_solver.
        + specialize (Hx "baggage"). set_solver.
        + specialize (Hx "govecctx"). set_solver. }
    split; [|split; [done|]].
    + intros m' [->|Hin]%elem_of_cons Hp; [by apply H1|]. apply (clean_for_down m); [done|]. by apply H2.
    + intros [<-|Hin]%elem_of_cons; [by apply Hh|]. specialize (H4 Hin). rewrite server_methods in H4.
      destruct m; try (by rewrite lookup_fmap, fmap_None in H4). by apply Hh.
  - intros (H1 & (H2 & H3) & H4).
    assert (Hh : m = Health → i_methods i !! "Health" = None) by (intros ->; apply H4; set_solver).
    assert (H1' : ∀ m', m' ∈ ms → m' ≠ Plain → clean_for m' i) by (intros m' ? ?; apply H1; [set_solver|done]).
    split; [intros Hp; split; [|done]; apply H1; [set_solver|done]|]. split; [|split; [done|]].
    + intros m' Hin Hp. apply clean_for_up; [|done| |by apply H1'].
      * intros ->. by apply H2.
      * intros Hp'. apply H1; [set_solver|done].
    + intros Hin. rewrite server_methods.
      assert (i_methods i !! "Health" = None) as E by (apply H4; set_solver).
      destruct m; try (by rewrite lookup_fmap, E). by destruct (H2 ltac:(done) Hin).
Qed.

Lemma compiles_iff mods i :
  i_methods i ≠ ∅ → no_ret_args i → ¬ health_too_late mods → (∃ m, m ∈ mods ∧ m ≠ Plain) →
  compiles mods i ↔ named_args i ∧ free_names mods i ∧ once mods ∧ health_free mods i.
Proof.
  intros Hne Hnr Hl (m0 & Hm0 & Hp0). rewrite compiles_clean, clean_iff by (try done; intros n f Hf k; by eapply Hnr).
  assert ((∀ m, m ∈ mods → m ≠ Plain → clean_for m i) ↔ named_args i ∧ free_names mods i) as ->; [|tauto].
  unfold clean_for, named_args, free_names. setoid_rewrite reserved_split. split.
  - intros H. split.
    + intros n f Hf. by apply (H m0 Hm0 Hp0 n f).
    + intros n f m x Hf Hin Hp Hx. destruct (H m Hin Hp n f Hf) as [_ Hy]. specialize (Hy x Hx). tauto.
  - intros [H1 H2] m Hin Hp n f Hf. split; [by eapply H1|]. intros x Hx. specialize (H2 n f m x Hf Hin Hp Hx). tauto.
Qed.
Lemma compiles_if mods i :
  no_ret_args i → ¬ health_too_late mods → named_args i → free_names mods i → once mods → health_free mods i → compiles mods i.
Proof.
  intros Hnr Hl H1 H2 H3 H4. rewrite compiles_clean by (try done; intros n f Hf k; by eapply Hnr).
  assert (∀ m, m ∈ mods → m ≠ Plain → clean_for m i) as H.
  { intros m Hin Hp n f Hf. split; [by eapply H1|]. intros x Hx. specialize (H2 n f m x Hf Hin Hp Hx). rewrite reserved_split in H2. tauto. }
  clear Hl Hnr H1 H2. revert i H H4. induction mods as [|m ms IH]; intros i H H4; [done|]. cbn [clean].
  apply once_cons in H3 as [H3 H5].
  assert (Hh : m = Health → i_methods i !! "Health" = None) by (intros ->; apply H4; set_solver).
  split; [intros Hp; split; [|done]; apply H; [set_solver|done]|]. apply IH; [done| |].
  - intros m' Hin Hp. apply clean_for_up; [intros ->; by apply H3|done|intros Hp'; apply H; [set_solver|done]|apply H; [set_solver|done]].
  - intros Hin. rewrite server_methods.
    assert (i_methods i !! "Health" = None) as E by (apply H4; set_solver).
    destruct m; try (by rewrite lookup_fmap, E). by destruct (H3 ltac:(done) Hin).
Qed.

(** ** Running *)
Section run.
  Context (extra : string → list val → ty → nat).

  Definition good (o : object) (ms : gmap string func) : Prop := ∀ n f args, ms !! n = Some f → typed f args →
    ∃ log rs e, o n args = Some (log, (rs, e)) ∧ v_ty <$> rs = f_rets f.
  (** Types of what is added to arguments and results *)
  Definition arg_ty (m : modifier) : ty := match m with GoVec => "[]byte" | _ => "string" end.
  Definition ret_tys (m : modifier) : list ty := match m with XTr => ["string"] | GoVec => ["[]byte"] | _ => [] end.
  Definition ctxm (m : modifier) : Prop := m ≠ Plain ∧ m ≠ Health.
  Lemma extend_args m f : ctxm m → (f_args (extend m f)).*2 = (f_args f).*2 ++ [arg_ty m].
  Proof. intros [? ?]. destruct m; try done; cbn; by rewrite fmap_app. Qed.
  Lemma extend_rets m f : f_rets (extend m f) = f_rets f ++ ret_tys m.
  Proof. destruct m; cbn; rewrite ?app_nil_r; done. Qed.
  Lemma typed_extend m f args' : ctxm m → typed (extend m f) args' → ∃ args v, args' = args ++ [v] ∧ typed f args ∧ v_ty v = arg_ty m.
  Proof.
    intros Hm. unfold typed. rewrite extend_args by done. intros H. apply fmap_app_inv in H as (args & l & H1 & H2 & ->).
    destruct l as [|v [|]]; try discriminate. injection H2 as ->. by exists args, v.
  Qed.
  Lemma typed_length f args : typed f args → length args = length (arg_names f).
  Proof. unfold typed, arg_names. intros H%(f_equal length). by rewrite !fmap_length in *. Qed.

  Lemma lookup_val_nodup env x v : NoDup env.*1 → (x, v) ∈ env → lookup_val x env = Some v.
  Proof. intros ? ?. unfold lookup_val. by rewrite (find_nodup _ _ v). Qed.
  Lemma mapM_zip (env : list (string * val)) xs vs : length xs = length vs → NoDup env.*1 → zip xs vs ⊆ env →
    mapM (λ x, lookup_val x env) xs = Some vs.
  Proof.
    intros Hl Hnd Hsub. pose proof (mapM_lookup (λ x, lookup_val x env) (zip xs vs)) as H.
    rewrite fst_zip, snd_zip in H by lia. apply H. intros x v Hin. apply lookup_val_nodup; [done|]. by apply Hsub.
  Qed.
  Lemma eval_args n a env f vs : length vs = length (arg_names f) → NoDup env.*1 → zip (arg_names f) vs ⊆ env →
    mapM (eval extra n a env) (arg_vars f) = Some vs.
  Proof.
    intros Hl Hnd Hsub. unfold arg_vars. assert (EVar ∘ fst <$> f_args f = EVar <$> arg_names f) as -> by (unfold arg_names; by rewrite <- list_fmap_compose).
    rewrite mapM_map. by apply mapM_zip.
  Qed.
  Lemma fst_zip_eq {A B} (l : list A) (k : list B) : length l = length k → (zip l k).*1 = l.
  Proof. intros. apply fst_zip. lia. Qed.

  Lemma run_server m i o n f args v log rs e :
    ctxm m → struct_ok (server_struct m i) → i_methods i !! n = Some f → typed f args → v_ty v = arg_ty m →
    o n args = Some (log, (rs, e)) → v_ty <$> rs = f_rets f →
    ∃ ex, instance extra (server_struct m i) o n (args ++ [v]) = Some (log, (rs ++ ex, e)) ∧ v_ty <$> ex = ret_tys m.
  Proof.
    intros [Hp Hh] (Hnd & Hok & _) Hf Hty Hv Ho Hrs.
    assert (Hin : (n, server_method m n f) ∈ s_methods (server_struct m i)).
    { cbn. apply elem_of_app. left. apply elem_of_list_In, in_map_iff. exists (n, f). split; [done|].
      apply elem_of_list_In. by apply elem_of_map_to_list. }
    rewrite Forall_forall in Hok. destruct (Hok _ Hin) as (Hd & _ & _). clear Hok.
    unfold instance. rewrite (find_nodup _ _ _ Hnd Hin). cbn [mbind option_bind]. unfold run_method.
    pose proof (typed_length _ _ Hty) as Hlen.
    assert (Hlr : length (ret_names f) = length rs) by (rewrite ret_names_length, <- Hrs; by rewrite fmap_length).
    rewrite decide_True; [|destruct m; try done; cbn; rewrite !fmap_app; cbn; unfold typed in Hty; rewrite Hty; cbn in Hv; by rewrite Hv].
    assert (Hpar : (g_params (server_method m n f)).*1 = arg_names f ++ match m with OT => ["traceCtx"] | XTr => ["baggage"] | _ => ["govecctx"] end)
      by (destruct m; try done; cbn; by rewrite fmap_app).
    rewrite Hpar, zip_with_app by done.
    set (xn := match m with OT => "traceCtx" | XTr => "baggage" | _ => "govecctx" end).
    set (env := zip (arg_names f) args ++ [(xn, v)]).
    assert (Eenv : zip (arg_names f) args ++ zip match m with OT => ["traceCtx"] | XTr => ["baggage"] | _ => ["govecctx"] end [v] = env) by (by destruct m).
    rewrite Eenv.
    set (ownp := match m with XTr => [("ret_baggage", "string")] | GoVec => [("govecret", "[]byte")] | _ => [] end).
    assert (Hcode : g_code (server_method m n f) = Assign n (arg_vars f) (ret_names f) ownp) by (by destruct m).
    rewrite Hcode.
    assert (Hres : (g_results (server_method m n f)).*1 = ret_names f ++ ownp.*1) by (destruct m; try done; cbn; rewrite ?fmap_app, ret_vars_fst, ?app_nil_r; done).
    assert (Hall : NoDup ((ownp.*1 ++ ret_names f) ++ env.*1)).
    { assert (env.*1 = arg_names f ++ [xn]) as -> by (unfold env; rewrite fmap_app, fst_zip_eq by done; done).
      assert (declared (server_method m n f) ≡ₚ ((ownp.*1 ++ ret_names f) ++ arg_names f ++ [xn]) ++ "handler" :: "ctx" :: "err" :: (g_vars (server_method m n f)).*1) as E.
      { unfold declared. rewrite Hpar, Hres. destruct m; try done; cbn; solve_Permutation. }
      rewrite E in Hd. by apply NoDup_app in Hd as [Hd _]. }
    rewrite (eval_args _ _ env f args); [|done|by apply NoDup_app in Hall as (_ & _ & ?)|unfold env; set_solver].
    cbn [mbind option_bind]. rewrite Ho. cbn [mbind option_bind].
    set (ov := (λ p : string * ty, Val p.2 (extra n (args ++ [v]) p.2)) <$> ownp).
    exists ov. split; [|by destruct m].
    rewrite (mapM_zip _ _ (rs ++ ov)); [done| | |].
    - rewrite Hres, !app_length, Hlr. unfold ov. by rewrite !fmap_length.
    - rewrite !fmap_app, fst_zip_eq by done. rewrite app_assoc.
      change (@map) with (@fmap list list_fmap). rewrite <- list_fmap_compose. by destruct m.
    - rewrite Hres, zip_with_app by done. intros [x u] [Hx|Hx]%elem_of_app.
      + set_solver.
      + apply elem_of_app. left. revert Hx. unfold ov, ownp. destruct m; cbn; try done.
  Qed.

  Lemma run_client m own srv w i o n f args log rs ex e :
    ctxm m → struct_ok (client_struct m own srv w) → i_methods own = i_methods i → i_methods i !! n = Some f → typed f args →
    (∀ v, v_ty v = arg_ty m → o n (args ++ [v]) = Some (log, (rs ++ ex v, e)) ∧ v_ty <$> ex v = ret_tys m) → v_ty <$> rs = f_rets f →
    instance extra (client_struct m own srv w) o n args = Some (log, (rs, e)).
  Proof.
    intros [Hp Hh] (Hnd & Hok & _) Hown Hf Hty Ho Hrs.
    assert (Hin : (n, client_method m n f) ∈ s_methods (client_struct m own srv w)).
    { cbn. apply elem_of_list_In, in_map_iff. exists (n, f). split; [done|].
      apply elem_of_list_In. rewrite Hown. by apply elem_of_map_to_list. }
    rewrite Forall_forall in Hok. destruct (Hok _ Hin) as (Hd & _ & _). clear Hok.
    unfold instance. rewrite (find_nodup _ _ _ Hnd Hin). cbn [mbind option_bind]. unfold run_method.
    pose proof (typed_length _ _ Hty) as Hlen.
    assert (Hlr : length (ret_names f) = length rs) by (rewrite ret_names_length, <- Hrs; by rewrite fmap_length).
    assert (Hpar : g_params (client_method m n f) = f_args f) by (by destruct m). rewrite Hpar.
    rewrite decide_True by done.
    set (env := zip (f_args f).*1 args).
    set (xs := match m with XTr => ["ret_baggage"] | GoVec => ["govec_ret"] | _ => [] end).
    assert (Hcode : g_code (client_method m n f) = Assign n (arg_vars f ++ [EExtra (arg_ty m)]) (ret_names f ++ xs) []) by (destruct m; try done; unfold xs; cbn; by rewrite app_nil_r).
    rewrite Hcode.
    assert (Hres : (g_results (client_method m n f)).*1 = ret_names f) by (destruct m; try done; cbn; rewrite ret_vars_fst; done).
    assert (Hall : NoDup ((ret_names f ++ xs) ++ arg_names f)).
    { assert (∃ l, declared (client_method m n f) ≡ₚ ((ret_names f ++ xs) ++ arg_names f) ++ l) as [l E].
      { unfold declared. rewrite Hpar, Hres. destruct m; try done; unfold xs, arg_names; cbn.
        - eexists ["handler"; "ctx"; "err"; "span"; "tp"; "tr"; "trace_ctx"]. solve_Permutation.
        - eexists ["handler"; "ctx"; "err"; "baggage_raw"; "baggage"; "ret_baggage_raw"]. solve_Permutation.
        - eexists ["handler"; "ctx"; "err"; "govec_bytes"]. solve_Permutation. }
      rewrite E in Hd. by apply NoDup_app in Hd as [Hd _]. }
    assert (Eenv : env.*1 = arg_names f) by (unfold env; by rewrite fst_zip_eq).
    rewrite mapM_app, (eval_args _ _ env f args); [|done|rewrite Eenv; by apply NoDup_app in Hall as (_ & _ & ?)|done].
    cbn [mbind option_bind mapM eval]. 
    destruct (Ho (Val (arg_ty m) (extra n args (arg_ty m)))) as [Ho' Hex]; [done|]. cbn [mbind option_bind mret option_ret].
    rewrite Ho'. cbn [mbind option_bind map app].
    set (exv := ex _) in *.
    assert (Hlx : length xs = length exv) by (apply (f_equal length) in Hex; rewrite fmap_length in Hex; rewrite Hex; by destruct m).
    rewrite (mapM_zip _ _ rs); [done|by rewrite Hres| |].
    - rewrite !fmap_app, fst_zip_eq by (rewrite !app_length; lia). by rewrite Eenv.
    - rewrite Hres, zip_with_app by done. set_solver.
  Qed.

  Lemma deploy_cons_ctx m ms i o own w :
    ctxm m → client_side ms (server_side ms (server_iface m i)) = Some w → client_iface m w = Some own →
    deploy extra (m :: ms) i o = (d ← deploy extra ms (server_iface m i) (instance extra (server_struct m i) o);
      Some (instance extra (client_struct m own (server_iface m i) w) d)).
  Proof.
    intros [Hp Hh] Hw Hown. unfold deploy. cbn [client_structs].
    assert (server_structs (m :: ms) i = server_struct m i :: server_structs ms (server_iface m i)) as -> by by destruct m.
    cbn [foldl]. destruct (client_structs ms (server_iface m i)) as [l|]; [|done]. cbn [mbind option_bind].
    rewrite Hw. cbn [mbind option_bind]. destruct m; try done; rewrite Hown; done.
  Qed.
  Lemma deploy_cons_health ms i o :
    deploy extra (Health :: ms) i o = deploy extra ms (server_iface Health i) (instance extra (server_struct Health i) o).
  Proof. unfold deploy. cbn [client_structs server_structs foldl]. by destruct (client_structs ms _). Qed.
  Lemma deploy_cons_plain ms i o : deploy extra (Plain :: ms) i o = deploy extra ms i o.
  Proof. unfold deploy. cbn [client_structs server_structs server_iface]. by destruct (client_structs ms _). Qed.

  Lemma run_health i o n f args :
    struct_ok (server_struct Health i) → i_methods i !! n = Some f → typed f args →
    instance extra (server_struct Health i) o n args = o n args.
  Proof.
    intros (Hnd & Hok & _) Hf Hty.
    assert (Hin : (n, server_method Health n f) ∈ s_methods (server_struct Health i)).
    { cbn. apply elem_of_app. left. apply elem_of_list_In, in_map_iff. exists (n, f). split; [done|].
      apply elem_of_list_In. by apply elem_of_map_to_list. }
    rewrite Forall_forall in Hok. destruct (Hok _ Hin) as (Hd & _ & _). clear Hok.
    unfold instance. rewrite (find_nodup _ _ _ Hnd Hin). cbn [mbind option_bind]. unfold run_method.
    pose proof (typed_length _ _ Hty) as Hlen. rewrite decide_True by done. cbn [server_method g_code g_params].
    rewrite (eval_args _ _ _ f args); [done|done| |done].
    rewrite fst_zip_eq by done. unfold declared in Hd. cbn in Hd. rewrite !NoDup_cons, NoDup_app in Hd. tauto.
  Qed.
  Lemma run_healthy i o : struct_ok (server_struct Health i) →
    instance extra (server_struct Health i) o "Health" [] = Some ([], ([healthy], false)).
  Proof.
    intros (Hnd & _ & _). unfold instance. rewrite (find_nodup _ "Health" (Method [] [("", "string")] false [] [] (Const [healthy])) Hnd); [done|].
    cbn. set_solver.
  Qed.

  Lemma transparent mods : ∀ i o, compiles mods i → ¬ health_too_late mods → good o (i_methods i) →
    ∃ d, deploy extra mods i o = Some d ∧ (∀ n f args, i_methods i !! n = Some f → typed f args → d n args = o n args) ∧
      (Health ∈ mods → d "Health" [] = Some ([], ([healthy], false))).
  Proof.
    induction mods as [|m ms IH]; intros i o Hc Hl Hg.
    { exists o. split; [done|]. split; [done|]. by intros ?%elem_of_nil. }
    rewrite too_late_cons in Hl. destruct Hc as (Hs & l & Hcl & Hfl).
    destruct (decide (m = Plain)) as [->|Hp].
    { rewrite deploy_cons_plain. destruct (IH i o) as (d & ? & ? & H3); [|tauto|done|].
      - split; [done|]. exists l. split; [|done]. cbn in Hcl. by destruct (client_structs ms i).
      - exists d. split; [done|]. split; [done|]. intros Hin. apply H3. set_solver. }
    assert (server_structs (m :: ms) i = server_struct m i :: server_structs ms (server_iface m i)) as E by by destruct m.
    rewrite E in Hs. apply Forall_cons in Hs as [Hsm Hs].
    destruct (decide (m = Health)) as [->|Hh].
    { rewrite deploy_cons_health. cbn [client_structs] in Hcl.
      assert (Hnh : i_methods i !! "Health" = None).
      { destruct Hsm as (Hnd & _ & _). rewrite server_names in Hnd. apply NoDup_app in Hnd as (_ & H & _).
        destruct (i_methods i !! "Health") as [f|] eqn:Ef; [|done]. exfalso. apply (H "Health"); [|set_solver].
        apply elem_of_list_fmap. exists ("Health", f). split; [done|]. by apply elem_of_map_to_list. }
      destruct (IH (server_iface Health i) (instance extra (server_struct Health i) o)) as (d & Hd & H2 & H3); [|tauto| |].
      - split; [done|]. exists l. split; [|done]. by destruct (client_structs ms _).
      - intros n f args Hf Hty. cbn in Hf. apply lookup_insert_Some in Hf as [[<- <-]|[Hne Hf]].
        + unfold typed in Hty. cbn in Hty. apply fmap_nil_inv in Hty as ->. rewrite run_healthy by done. by eexists [], [healthy], false.
        + rewrite (run_health _ _ _ f) by done. by apply Hg.
      - exists d. split; [done|]. split.
        + intros n f args Hf Hty. assert (n ≠ "Health") by (intros ->; by rewrite Hnh in Hf). rewrite (H2 n f); [by apply (run_health _ _ _ f)| |done].
          cbn. by rewrite lookup_insert_ne.
        + intros _. rewrite (H2 _ (Func [] ["string"])); [by apply run_healthy| |done]. cbn. by rewrite lookup_insert. }
    assert (Hm : ctxm m) by done.
    destruct (consumer_ok ms (server_iface m i) ltac:(tauto)) as (w & Hw & Ew). unfold consumer_iface in Hw.
    assert (Hnh : Health ∉ ms) by (intros ?; apply Hl; left; split; [|done]; destruct m; unfold passes_context; naive_solver).
    unfold promised in Ew. rewrite decide_False in Ew by done.
    destruct (client_iface_ctx m w i Hh Ew) as (own & Hown & Eown).
    assert (Hcl' : ∃ l', client_structs ms (server_iface m i) = Some l' ∧ l = client_struct m own (server_iface m i) w :: l').
    { cbn [client_structs] in Hcl. destruct (client_structs ms (server_iface m i)) as [l'|]; [|done]. exists l'. split; [done|].
      rewrite Hw in Hcl. cbn [mbind option_bind] in Hcl. destruct m; try done; rewrite Hown in Hcl; cbn [mbind option_bind] in Hcl; by injection Hcl as <-. }
    destruct Hcl' as (l' & Hl' & ->). apply Forall_cons in Hfl as [Hcm Hfl].
    rewrite (deploy_cons_ctx m ms i o own w Hm Hw Hown).
    assert (Esrv : i_methods (server_iface m i) = extend m <$> i_methods i) by (rewrite server_methods; by destruct m).
    destruct (IH (server_iface m i) (instance extra (server_struct m i) o)) as (d & Hd & H2 & H3); [|tauto| |].
    - split; [done|]. by exists l'.
    - intros n f' args' Hf' Hty'. rewrite Esrv, lookup_fmap_Some in Hf'. destruct Hf' as (f & <- & Hf).
      apply typed_extend in Hty' as (args & v & -> & Hty & Hv); [|done].
      destruct (Hg n f args Hf Hty) as (log & rs & e & Ho & Hrs).
      destruct (run_server m i o n f args v log rs e) as (ex & -> & Hex); try done.
      exists log, (rs ++ ex), e. split; [done|]. by rewrite fmap_app, extend_rets, Hrs, Hex.
    - rewrite Hd. cbn [mbind option_bind]. eexists. split; [done|]. split.
      + intros n f args Hf Hty. destruct (Hg n f args Hf Hty) as (log & rs & e & Ho & Hrs). rewrite Ho.
        assert (Hall : ∀ v, v_ty v = arg_ty m → ∃ ex, d n (args ++ [v]) = Some (log, (rs ++ ex, e)) ∧ v_ty <$> ex = ret_tys m).
        { intros v Hv. destruct (run_server m i o n f args v log rs e) as (ex & E1 & Hex); try done. exists ex. split; [|done].
          rewrite (H2 n (extend m f)); [done| |].
          - by rewrite Esrv, lookup_fmap, Hf.
          - unfold typed in *. rewrite extend_args by done. rewrite fmap_app, Hty. cbn. by rewrite Hv. }
        eapply (run_client m own (server_iface m i) w i d n f args log rs
          (λ v, match d n (args ++ [v]) with Some (_, (r, _)) => drop (length rs) r | None => [] end) e); try done.
        intros v Hv. destruct (Hall v Hv) as (ex & -> & Hex). by rewrite drop_app.
      + intros [?|?]%elem_of_cons; done.
  Qed.
End run.

Lemma too_late_dec mods : health_too_late mods ∨ ¬ health_too_late mods.
Proof.
  induction mods as [|m ms IH]; [right; apply not_too_late_nil|]. rewrite too_late_cons.
  assert (passes_context m ∨ ¬ passes_context m) by (unfold passes_context; destruct m; naive_solver).
  destruct (decide (Health ∈ ms)); tauto.
Qed.
Lemma deploy_none extra mods i o : deploy extra mods i o = None ↔ consumer_iface mods i = None.
Proof. rewrite <- structs_none. unfold deploy. by destruct (client_structs mods i). Qed.
Lemma server_implements m i : implements (server_struct m i) (i_methods (server_iface m i)).
Proof.
  intros n f' Hf'. destruct (decide (m = Health ∧ n = "Health")) as [[-> ->]|Hne].
  - cbn in Hf'. rewrite lookup_insert in Hf'. injection Hf' as <-. exists (Method [] [("", "string")] false [] [] (Const [healthy])).
    split; [cbn; set_solver|done].
  - apply server_lookup in Hf' as [(f & Hf & ->)|(-> & -> & ->)]; [|tauto]. exists (server_method m n f). split.
    + cbn. apply elem_of_app. left. apply elem_of_list_In, in_map_iff. exists (n, f). split; [done|].
      apply elem_of_list_In. by apply elem_of_map_to_list.
    + unfold method_type, func_type. destruct m; cbn; rewrite ?fmap_app, ?ret_vars_snd, ?unnamed_snd; done.
Qed.
Lemma client_implements m own srv w : implements (client_struct m own srv w) (i_methods own).
Proof.
  intros n f Hf. exists (client_method m n f). split.
  - cbn. apply elem_of_list_In, in_map_iff. exists (n, f). split; [done|]. apply elem_of_list_In. by apply elem_of_map_to_list.
  - unfold method_type, func_type. destruct m; cbn; rewrite ?ret_vars_snd, ?unnamed_snd; done.
Qed.
