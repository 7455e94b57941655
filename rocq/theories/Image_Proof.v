From Verif Require Export Image_Spec RunSh_Proof Names_Proof Env_Proof.
From Verif Require Import Names_Spec.
From stdpp Require Export list.
Open Scope string_scope.
Open Scope list_scope.

(** ** Names *)
Lemma list_string l : list_ascii_of_string (string_of_list_ascii l) = l.
Proof. induction l; simpl; congruence. Qed.
Lemma string_list s : string_of_list_ascii (list_ascii_of_string s) = s.
Proof. induction s; simpl; congruence. Qed.
Lemma clean_clean n : CleanName (CleanName n) = CleanName n.
Proof. unfold CleanName. rewrite list_string. by rewrite clean_idemp. Qed.
Lemma lower_clean n : lower (CleanName n) = FuncName n.
Proof. unfold lower, CleanName, FuncName, func_name. by rewrite list_string. Qed.
Lemma key_inj (a b s : string) : a +:+ s = b +:+ s → a = b.
Proof.
  intros H. assert (list_ascii_of_string (a +:+ s) = list_ascii_of_string (b +:+ s)) as H2 by by rewrite H.
  assert (∀ x y : string, list_ascii_of_string (x +:+ y) = list_ascii_of_string x ++ list_ascii_of_string y) as Ha.
  { clear. intros x y. induction x as [|c x IH]; [done|]. change (String c x +:+ y) with (String c (x +:+ y)). simpl. by rewrite IH. }
  rewrite !Ha in H2. apply app_inv_tail in H2. rewrite <-(string_list a), <-(string_list b). by rewrite H2.
Qed.
Lemma list_app x y : list_ascii_of_string (x +:+ y) = list_ascii_of_string x ++ list_ascii_of_string y.
Proof. induction x as [|c x IH]; [done|]. change (String c x +:+ y) with (String c (x +:+ y)). simpl. by rewrite IH. Qed.
Lemma key_ne a b : a +:+ ".artifacts" ≠ b +:+ ".instance".
Proof.
  intros H. assert (list_ascii_of_string (a +:+ ".artifacts") = list_ascii_of_string (b +:+ ".instance")) as H2 by by rewrite H.
  rewrite !list_app in H2. apply (f_equal last) in H2.
  change (list_ascii_of_string ".artifacts") with (list_ascii_of_string ".artifact" ++ ["s"%char]) in H2.
  change (list_ascii_of_string ".instance") with (list_ascii_of_string ".instanc" ++ ["e"%char]) in H2.
  rewrite !app_assoc, !last_snoc in H2. done.
Qed.
Lemma is_space_iff c : is_space c = true ↔ c = " "%char.
Proof.
  revert c. assert (∀ c, Bool.eqb (is_space c) (bool_decide (c = " "%char)) = true) as H.
  { apply ascii_all. by vm_compute. }
  intros c. specialize (H c). apply Bool.eqb_prop in H. rewrite H. apply bool_decide_eq_true.
Qed.
Lemma no_space_iff s : no_space s = true ↔ " "%char ∉ list_ascii_of_string s.
Proof.
  unfold no_space. rewrite forallb_forall. split.
  - intros H Hin. apply elem_of_list_In, H in Hin. simpl in Hin. by vm_compute in Hin.
  - intros H c Hc. apply elem_of_list_In in Hc. destruct (is_space c) eqn:Es; [|done]. apply is_space_iff in Es as ->. done.
Qed.
Lemma lower_letter c : is_lower (to_lower_c c) = true ↔ letter c.
Proof.
  revert c. assert (∀ c, Bool.eqb (is_lower (to_lower_c c)) (is_lower c || is_upper c) = true) as H.
  { apply ascii_all. by vm_compute. }
  intros c. specialize (H c). apply Bool.eqb_prop in H. rewrite H, orb_true_iff. done.
Qed.
Lemma valid_stage_iff s : valid_stage s = true ↔ stage_name s.
Proof.
  unfold valid_stage, stage_name, lower. rewrite list_string.
  destruct (list_ascii_of_string s) as [|c r] eqn:El; simpl.
  - split; [done|]. by intros (?&?&?&_).
  - rewrite andb_true_iff, lower_letter, no_space_iff, El. split.
    + intros [? ?]. eauto.
    + intros (?&?&?&?&?). by simplify_eq.
Qed.
Lemma stage_facts s : valid_stage s = true → no_space s = true ∧ s ≠ "".
Proof.
  intros H. unfold valid_stage in H. destruct (list_ascii_of_string (lower s)) as [|c r] eqn:El; [done|].
  apply andb_true_iff in H as [_ H]. split; [done|]. intros ->. by vm_compute in El.
Qed.

(** ** The workspace *)
Definition names (ps : list process) : list string := pr_name <$> ps.
Definition in_dir (c : string) (ns : list string) : list string := filter (λ n, CleanName n = c) ns.
Definition arts (ps : list process) : workspace := foldl (λ w p, add_artifacts p w) new_workspace ps.
Lemma arts_spec ps :
  NoDup (names ps) →
  (∀ c, ws_dirs (arts ps) !! c = match in_dir c (names ps) with [] => None | l => Some l end) ∧
  (∀ c x, ws_custom (arts ps) !! c = Some x ↔ x = build_commands c ∧ ∃ p, p ∈ ps ∧ pr_go p = true ∧ CleanName (pr_name p) = c) ∧
  ws_run (arts ps) = new_run_script ∧
  (∀ k, k ∈ ws_visited (arts ps) ↔ ∃ p, p ∈ ps ∧ k = pr_name p +:+ ".artifacts").
Proof.
  induction ps as [|p ps IH] using rev_ind; intros Hnd.
  - unfold arts, names, in_dir. simpl. split_and!; [intros; apply lookup_empty| |done|].
    + intros c x. rewrite lookup_empty. split; [done|]. intros (_&?&?&_). set_solver.
    + intros k. split; [set_solver|]. intros (?&?&_). set_solver.
  - unfold names in Hnd. rewrite fmap_app in Hnd. apply NoDup_app in Hnd as (Hn1&Hn2&_).
    destruct (IH Hn1) as (I1&I2&I3&I4).
    assert (arts (ps ++ [p]) = add_artifacts p (arts ps)) as -> by (unfold arts; by rewrite foldl_app).
    set (w := arts ps) in *. unfold add_artifacts.
    assert (pr_name p +:+ ".artifacts" ∉ ws_visited w) as Hv.
    { rewrite I4. intros (q&Hq&Hk). apply key_inj in Hk. apply (Hn2 (pr_name q)); [by apply elem_of_list_fmap_1|]. rewrite <-Hk. simpl. set_solver. }
    rewrite decide_False by done. simpl. split_and!.
    + intros c. unfold names, in_dir in *. rewrite fmap_app, filter_app. simpl.
      destruct (decide (CleanName (pr_name p) = c)) as [<-|Hne].
      * rewrite lookup_insert. rewrite filter_cons_True by done. rewrite I1. simpl.
        destruct (filter _ (pr_name <$> ps)); done.
      * rewrite lookup_insert_ne by done. rewrite filter_cons_False by done. rewrite filter_nil, app_nil_r. apply I1.
    + intros c x. destruct (pr_go p) eqn:Eg.
      * destruct (decide (CleanName (pr_name p) = c)) as [<-|Hne].
        -- rewrite lookup_insert. split.
           ++ intros [= <-]. split; [done|]. exists p. set_solver.
           ++ by intros [-> _].
        -- rewrite lookup_insert_ne by done. rewrite I2. split.
           ++ intros (->&q&Hq&?). split; [done|]. exists q. set_solver.
           ++ intros (->&q&Hq&?&?). split; [done|]. exists q. apply elem_of_app in Hq as [Hq|Hq%elem_of_list_singleton]; [done|by subst].
      * rewrite I2. split.
        -- intros (->&q&Hq&?). split; [done|]. exists q. set_solver.
        -- intros (->&q&Hq&?&?). split; [done|]. exists q.
           apply elem_of_app in Hq as [Hq|Hq%elem_of_list_singleton]; [done|]. subst. by rewrite Eg in *.
    + done.
    + intros k. rewrite elem_of_union, elem_of_singleton, I4. split.
      * intros [->|(q&Hq&->)]; [exists p|exists q]; set_solver.
      * intros (q&Hq&->). apply elem_of_app in Hq as [Hq|Hq%elem_of_list_singleton]; [right; eauto|left; by subst].
Qed.
Lemma insts_spec ps : ∀ w,
  NoDup (names ps) → (∀ p, p ∈ ps → pr_name p +:+ ".instance" ∉ ws_visited w) →
  match declare_all (run_cmd <$> ps) (ws_run w) with
  | Some r => ∃ v, add_instances ps w = Some (Workspace v (ws_dirs w) (ws_custom w) r)
  | None => add_instances ps w = None end.
Proof.
  induction ps as [|p ps IH]; intros w Hnd Hv; cbn [declare_all add_instances fmap list_fmap].
  - exists (ws_visited w). by destruct w.
  - unfold names in Hnd. simpl in Hnd. apply NoDup_cons in Hnd as [Hn Hnd].
    unfold add_instance. rewrite decide_False by (apply Hv; set_solver).
    destruct (declare_run_command (run_cmd p) (ws_run w)) as [r []] eqn:Ed; [|done].
    apply (IH (Workspace _ _ _ _)); [done|]. simpl. intros q Hq. rewrite not_elem_of_union, not_elem_of_singleton. split.
    + intros Hk%key_inj. apply Hn. rewrite <-Hk. by apply elem_of_list_fmap_1.
    + apply Hv. set_solver.
Qed.
Lemma func_no_brace n : "{"%char ∉ list_ascii_of_string (FuncName n).
Proof.
  unfold FuncName. rewrite list_string. unfold func_name. intros Hin. apply elem_of_list_fmap in Hin as (c&Hc&Hin).
  apply clean_legal in Hin. revert c Hc Hin.
  assert (∀ c, negb (legal c) || negb (bool_decide ("{"%char = to_lower_c c)) = true) as H.
  { apply ascii_all. by vm_compute. }
  intros c Hc Hl. specialize (H c). rewrite Hl in H. rewrite bool_decide_true in H by done. done.
Qed.
Lemma go_cmd_some c args deps : is_Some (generate_run_func (list_ascii_of_string (binary_run_func c args)) deps).
Proof.
  unfold binary_run_func.
  match goal with |- context [list_ascii_of_string ("run_" +:+ _ +:+ ?t)] => set (tl := t) end.
  rewrite (list_app "run_"), (list_app (FuncName c)).
  assert (∃ body, body ≠ [] ∧ list_ascii_of_string tl = " "%char :: "{"%char :: body ++ ["}"%char]) as (body&Hb&->).
  { unfold tl. clear tl. rewrite !list_app.
    match goal with |- ∃ b, _ ∧ (list_ascii_of_string ?a ++ ?r) = _ =>
      change (list_ascii_of_string a) with (" "%char :: "{"%char :: drop 2 (list_ascii_of_string a)) end.
    eexists. split; [|].
    2:{ cbn [app]. do 2 f_equal. rewrite !app_assoc.
        match goal with |- _ ++ list_ascii_of_string ?z = _ =>
          change (list_ascii_of_string z) with (removelast (list_ascii_of_string z) ++ ["}"%char]) end.
        rewrite app_assoc. reflexivity. }
    intros H. apply (f_equal length) in H. rewrite !app_length in H. simpl in H. lia. }
  replace (list_ascii_of_string "run_" ++ list_ascii_of_string (FuncName c) ++ " "%char :: "{"%char :: body ++ ["}"%char])
    with ((list_ascii_of_string "run_" ++ list_ascii_of_string (FuncName c) ++ [" "%char]) ++ "{"%char :: body ++ "}"%char :: [])
    by (rewrite <-!app_assoc; done).
  unfold generate_run_func. rewrite get_func_body_spec.
  - destruct body; [done|]. eauto.
  - rewrite !elem_of_app. intros [H|[H|H]]; [|by apply func_no_brace in H|]; revert H; apply (bool_decide_unpack _); by vm_compute.
  - set_solver.
Qed.
Lemma go_declare ps r : Forall (λ p, pr_go p = true) ps → is_Some (declare_all (run_cmd <$> ps) r).
Proof.
  intros H. revert r. induction H as [|p ps Hp _ IH]; intros r; simpl; [eauto|].
  unfold declare_run_command, run_cmd at 1. simpl. rewrite Hp.
  rewrite bool_decide_true by apply go_cmd_some. apply IH.
Qed.
Lemma image_of_spec ps :
  NoDup (names ps) →
  match declare_all (run_cmd <$> ps) new_run_script with
  | Some r => image_of ps = Some (ImageDir
      (dockerfile (ws_custom (arts ps)) (filter (λ x, ws_custom (arts ps) !! x.1 = None) (ws_dirs (arts ps))))
      (ws_dirs (arts ps)) r)
  | None => image_of ps = None end.
Proof.
  intros Hnd. destruct (arts_spec ps Hnd) as (A1&A2&A3&A4). pose proof (insts_spec ps (arts ps) Hnd) as H. rewrite A3 in H.
  unfold image_of. fold (arts ps). destruct (declare_all _ _) as [r|].
  - destruct H as [v Hv]; [|by rewrite Hv]. intros p Hp. rewrite A4. intros (q&_&Hk). symmetry in Hk. by apply key_ne in Hk.
  - rewrite H; [done|]. intros p Hp. rewrite A4. intros (q&_&Hk). symmetry in Hk. by apply key_ne in Hk.
Qed.

(** ** Docker *)
Section docker.
Context (E : env).
Implicit Types (ctx : gmap string (list string)) (b : list (option string * root)).
Lemma exec_app ctx is1 is2 b :
  exec_all E ctx (is1 ++ is2) b = match exec_all E ctx is1 b with Some b' => exec_all E ctx is2 b' | None => None end.
Proof. revert b. induction is1 as [|i r IH]; intros b; simpl; [done|]. destruct (exec E ctx i b); [apply IH|done]. Qed.

(** The stage of a golang process. *)
Definition golang := "golang:1.25-bookworm".
Definition stage_root (ps : list string) (c q : string) : root :=
  <[c := Program c q]> (<[c := Existing]> (<["src" := Sources ps]> (base_root E golang))).
Definition stage_of ctx (c : string) : option (option string * root) :=
  if valid_stage c then
    match ctx !! c with
    | Some ps => if decide (c = "src" ∨ c ∈ e_golang E) then None
                 else match compiled E ps c with
                      | Some q => Some (Some (lower c), stage_root ps c q)
                      | None => None end
    | None => None end
  else None.
Lemma base_lookup c : base_root E golang !! c = if decide (c ∈ e_golang E) then Some Existing else None.
Proof.
  unfold base_root. rewrite decide_True by done. destruct (decide (c ∈ e_golang E)).
  - apply lookup_set_to_map; [|eauto]. intros; by simplify_eq.
  - apply eq_None_not_Some. intros [x Hx]. apply lookup_set_to_map in Hx as (y&Hy&Hx); [|intros; by simplify_eq]. by simplify_eq.
Qed.
Lemma build_exec ctx c b : exec_all E ctx (build_commands c) b = match stage_of ctx c with Some x => Some (x :: b) | None => None end.
Proof.
  unfold build_commands, stage_of. simpl. destruct (valid_stage c) eqn:Ev; [|done]. simpl.
  destruct (stage_facts c Ev) as [Hs Hne]. rewrite Hs. rewrite decide_False by done.
  destruct (ctx !! c) as [ps|]; [|done]. fold golang.
  destruct (decide (c = "src" ∨ c ∈ e_golang E)) as [[->|Hin]|Hno].
  - by rewrite lookup_insert.
  - destruct (decide (c = "src")) as [->|Hn2]; [by rewrite lookup_insert|].
    rewrite lookup_insert_ne by done. rewrite base_lookup. by rewrite decide_True.
  - assert (c ≠ "src" ∧ c ∉ e_golang E) as [H1 H2] by tauto.
    rewrite lookup_insert_ne by done. rewrite base_lookup, decide_False by done.
    rewrite lookup_insert_ne by done. rewrite lookup_insert.
    by destruct (compiled E ps c).
Qed.
Lemma stages_exec ctx cs b :
  exec_all E ctx (concat (build_commands <$> cs)) b = (λ xs, reverse xs ++ b) <$> mapM (stage_of ctx) cs.
Proof.
  revert b. induction cs as [|c cs IH]; intros b; [done|]. cbn [fmap list_fmap concat]. rewrite exec_app, build_exec.
  simpl. destruct (stage_of ctx c) as [x|]; simpl; [|done]. rewrite IH. destruct (mapM (stage_of ctx) cs) as [xs|]; simpl; [|done].
  by rewrite reverse_cons, <-app_assoc.
Qed.
Lemma stage_inv ctx c x :
  stage_of ctx c = Some x →
  ∃ ps q, ctx !! c = Some ps ∧ compiled E ps c = Some q ∧ x = (Some (lower c), stage_root ps c q) ∧
    valid_stage c = true ∧ c ≠ "src" ∧ c ∉ e_golang E.
Proof.
  unfold stage_of. destruct (valid_stage c) eqn:Ev; [|done]. destruct (ctx !! c) as [ps|]; [|done].
  case_decide as Hd; [done|]. destruct (compiled E ps c) as [q|] eqn:Eq; [|done]. intros [= <-]. exists ps, q. split_and!; naive_solver.
Qed.
Lemma stage_root_lookup ps c q c' :
  c' ≠ "src" → c' ∉ e_golang E → stage_root ps c q !! c' = if decide (c' = c) then Some (Program c q) else None.
Proof.
  intros H1 H2. unfold stage_root. destruct (decide (c' = c)) as [->|Hne]; [apply lookup_insert|].
  rewrite !lookup_insert_ne by done. rewrite base_lookup. by rewrite decide_False.
Qed.

(** What COPY --from finds. *)
Definition pick b (c : string) : option content :=
  match list_find (λ x, x.1 = Some (lower c)) b with Some (_, (_, r)) => r !! c | None => None end.
Lemma copies_exec ctx cs s r b b' :
  exec_all E ctx ((λ c, CopyFrom c c c) <$> cs) ((s, r) :: b) = Some b' →
  ∃ r', b' = (s, r') :: b ∧ ∀ c, if decide (c ∈ cs) then is_Some (pick b c) ∧ r' !! c = pick b c else r' !! c = r !! c.
Proof.
  revert r b'. induction cs as [|c cs IH]; intros r b'; cbn [fmap list_fmap exec_all].
  - intros [= <-]. exists r. split; [done|]. intros c. rewrite decide_False by set_solver. done.
  - destruct (exec E ctx (CopyFrom c c c) ((s, r) :: b)) as [b1|] eqn:E1; [|done]. intros H2. simpl in E1.
    assert (∃ x, pick b c = Some x ∧ b1 = (s, <[c := x]> r) :: b) as (x&Hx&->).
    { unfold pick. destruct (list_find _ b) as [[i [s' r1]]|]; [|done]. destruct (r1 !! c) as [x|] eqn:Ex; [|done].
      injection E1 as <-. by exists x. }
    destruct (IH _ _ H2) as (r'&->&Hr). exists r'. split; [done|]. intros c'. specialize (Hr c').
    destruct (decide (c' ∈ cs)) as [Hin|Hnin].
    + by rewrite decide_True by set_solver.
    + destruct (decide (c' = c)) as [->|Hne].
      * rewrite decide_True by set_solver. rewrite lookup_insert in Hr. rewrite Hr, Hx. eauto.
      * rewrite decide_False by set_solver. by rewrite lookup_insert_ne in Hr.
Qed.
Lemma copies_ok ctx cs s r b :
  (∀ c, c ∈ cs → is_Some (pick b c)) → is_Some (exec_all E ctx ((λ c, CopyFrom c c c) <$> cs) ((s, r) :: b)).
Proof.
  revert r. induction cs as [|c cs IH]; intros r H; cbn [fmap list_fmap exec_all]; [eauto|].
  destruct (H c) as [x Hx]; [set_solver|]. unfold pick in Hx. simpl.
  destruct (list_find _ b) as [[i [s' r1]]|]; [|done]. rewrite Hx. apply IH. set_solver.
Qed.
(** Plain copies. *)
Lemma plain_exec ctx cs s r b :
  (∀ c, c ∈ cs → no_space c = true ∧ c ≠ "" ∧ is_Some (ctx !! c)) →
  ∃ r', exec_all E ctx ((λ c, CopyDir c c) <$> cs) ((s, r) :: b) = Some ((s, r') :: b) ∧
    ∀ c, r' !! c = if decide (c ∈ cs) then Sources <$> ctx !! c else r !! c.
Proof.
  revert r. induction cs as [|c cs IH]; intros r H; cbn [fmap list_fmap exec_all].
  - exists r. split; [done|]. intros c. by rewrite decide_False by set_solver.
  - destruct (H c) as (H1&H2&ps&H3); [set_solver|]. simpl. rewrite H1, H3. rewrite decide_False by done.
    destruct (IH (<[c := Sources ps]> r)) as (r'&->&Hr); [set_solver|]. exists r'. split; [done|].
    intros c'. rewrite Hr. destruct (decide (c' ∈ cs)) as [?|?].
    + by rewrite decide_True by set_solver.
    + destruct (decide (c' = c)) as [->|?].
      * rewrite lookup_insert, decide_True by set_solver. by rewrite H3.
      * rewrite lookup_insert_ne by done. by rewrite decide_False by set_solver.
Qed.

(** Finding a stage by name when names differ. *)
Lemma pick_in ctx cs xs b c :
  mapM (stage_of ctx) cs = Some xs → c ∈ cs → NoDup (lower <$> cs) →
  ∃ ps q, ctx !! c = Some ps ∧ compiled E ps c = Some q ∧ pick (reverse xs ++ b) c = Some (Program c q).
Proof.
  intros Hm Hc Hnd. apply mapM_Some in Hm.
  assert (∃ x, x ∈ xs ∧ stage_of ctx c = Some x) as (x&Hx&Hs).
  { clear Hnd. induction Hm as [|c' x cs xs Hc' Hm IH]; [set_solver|]. apply elem_of_cons in Hc as [->|Hc].
    - exists x. set_solver.
    - destruct (IH Hc) as (y&?&?). exists y. set_solver. }
  destruct (stage_inv _ _ _ Hs) as (ps&q&Hp&Hq&->&Hv&Hsrc&Hg). exists ps, q. split_and!; [done|done|].
  unfold pick.
  destruct (list_find (λ x, x.1 = Some (lower c)) (reverse xs ++ b)) as [[i y]|] eqn:Ef.
  - assert (y ∈ xs ∧ y.1 = Some (lower c)) as [Hy Hy1].
    { apply list_find_Some in Ef as (Hi&Hy&Hmin). split; [|done].
      destruct (decide (i < length (reverse xs))) as [Hl|Hl].
      - rewrite lookup_app_l in Hi by done. apply elem_of_list_lookup_2 in Hi. by rewrite elem_of_reverse in Hi.
      - exfalso. apply elem_of_reverse, elem_of_list_lookup in Hx as [j Hj].
        pose proof (lookup_lt_Some _ _ _ Hj). eapply (Hmin j); [by rewrite lookup_app_l|lia|done]. }
    assert (y = (Some (lower c), stage_root ps c q)) as ->; [|by rewrite stage_root_lookup, decide_True by done].
    clear Ef Hv. induction Hm as [|c' x cs xs Hc' Hm IH]; [set_solver|]. simpl in Hnd. apply NoDup_cons in Hnd as [Hn Hnd].
    assert (∀ z, z ∈ xs → ∃ d, d ∈ cs ∧ stage_of ctx d = Some z) as Hz.
    { clear -Hm. induction Hm as [|c' x cs xs ? ? IH]; [set_solver|]. intros z [->|Hz]%elem_of_cons; [exists c'; set_solver|].
      destruct (IH z Hz) as (d&?&?). exists d. set_solver. }
    destruct (stage_inv _ _ _ Hc') as (?&?&_&_&Hx1&_).
    apply elem_of_cons in Hc as [->|Hc].
    + assert (x = (Some (lower c'), stage_root ps c' q)) as -> by congruence.
      apply elem_of_cons in Hy as [->|Hy]; [done|]. exfalso. destruct (Hz y Hy) as (d&Hd&Hsd).
      destruct (stage_inv _ _ _ Hsd) as (?&?&_&_&->&_). simpl in Hy1. apply Hn. injection Hy1 as <-. by apply elem_of_list_fmap_1.
    + apply elem_of_cons in Hy as [->|Hy].
      * exfalso. rewrite Hx1 in Hy1. simpl in Hy1. injection Hy1 as Hl. apply Hn. rewrite Hl. by apply elem_of_list_fmap_1.
      * apply elem_of_cons in Hx as [Hx|Hx].
        -- exfalso. rewrite Hx1 in Hx. injection Hx as Hl. apply Hn. rewrite <-Hl. by apply elem_of_list_fmap_1.
        -- by apply IH.
  - apply list_find_None in Ef. rewrite Forall_forall in Ef. exfalso. eapply (Ef (Some (lower c), _)).
    + apply elem_of_app. left. by apply elem_of_reverse.
    + done.
Qed.
(** Two names that differ in case only: one of the copies fails. *)
Lemma pick_clash ctx cs xs c1 c2 :
  mapM (stage_of ctx) cs = Some xs → c1 ∈ cs → c2 ∈ cs → c1 ≠ c2 → lower c1 = lower c2 →
  ∀ b, (∀ x, x ∈ b → x.1 = None) → pick (b ++ reverse xs) c1 = None ∨ pick (b ++ reverse xs) c2 = None.
Proof.
  intros Hm Hc1 Hc2 Hne Hl b Hb. apply mapM_Some in Hm.
  assert (∀ c, c ∈ cs → c ≠ "src" ∧ c ∉ e_golang E) as Hok.
  { clear -Hm. intros c Hc. induction Hm as [|c' x cs xs Hs Hm IH]; [set_solver|].
    apply elem_of_cons in Hc as [->|Hc]; [|by apply IH]. destruct (stage_inv _ _ _ Hs) as (?&?&?&?&?&?&?). tauto. }
  destruct (Hok c1 Hc1) as [A1 A2], (Hok c2 Hc2) as [B1 B2]. unfold pick. rewrite Hl.
  destruct (list_find _ (b ++ reverse xs)) as [[i [s r]]|] eqn:Ef; [|by left].
  apply list_find_Some in Ef as (Hi&Hs&_). simpl in Hs. subst s. apply elem_of_list_lookup_2 in Hi.
  apply elem_of_app in Hi as [Hi|Hi]; [by apply Hb in Hi|]. rewrite elem_of_reverse in Hi.
  assert (∃ ps c q, r = stage_root ps c q) as (ps&c&q&->).
  { clear -Hm Hi. induction Hm as [|c' x cs xs Hs Hm IH]; [set_solver|].
    apply elem_of_cons in Hi as [Hi|Hi]; [|by apply IH]. destruct (stage_inv _ _ _ Hs) as (ps&q&_&_&->&_).
    injection Hi as _ ->. eauto. }
  rewrite !stage_root_lookup by done. repeat case_decide; subst; auto; done.
Qed.

(** ** The image *)
Lemma keys_elem {A} (m : gmap string A) c : c ∈ keys m ↔ is_Some (m !! c).
Proof. unfold keys. rewrite sort_strings_perm, elem_of_elements, elem_of_dom. done. Qed.
Lemma keys_nodup {A} (m : gmap string A) : NoDup (keys m).
Proof. unfold keys. rewrite sort_strings_perm. apply NoDup_elements. Qed.
Lemma custom_commands ps :
  NoDup (names ps) →
  (λ c, default [] (ws_custom (arts ps) !! c)) <$> keys (ws_custom (arts ps)) = build_commands <$> keys (ws_custom (arts ps)).
Proof.
  intros Hnd. destruct (arts_spec ps Hnd) as (_&A2&_). apply list_fmap_ext. intros i c Hi%elem_of_list_lookup_2.
  apply keys_elem in Hi as [x Hx]. rewrite Hx. simpl. by apply A2 in Hx as [-> _].
Qed.
Lemma in_dir_one ps p :
  NoDup (CleanName <$> names ps) → p ∈ ps → in_dir (CleanName (pr_name p)) (names ps) = [pr_name p].
Proof.
  intros Hnd Hp. unfold in_dir, names in *. induction ps as [|q ps IH]; [set_solver|]. simpl in *.
  apply NoDup_cons in Hnd as [Hn Hnd]. apply elem_of_cons in Hp as [->|Hp].
  - rewrite filter_cons_True by done. f_equal. clear IH Hnd.
    destruct (filter _ _) as [|x l] eqn:Ef; [done|]. exfalso.
    pose proof (elem_of_list_here x l) as Hx. rewrite <-Ef in Hx.
    apply elem_of_list_filter in Hx as [Hc Hx]. apply Hn. rewrite <-Hc. by apply elem_of_list_fmap_1.
  - rewrite filter_cons_False; [by apply IH|]. intros Hc. apply Hn. rewrite Hc. apply elem_of_list_fmap_1. by apply elem_of_list_fmap_1.
Qed.
Lemma func_clean n1 n2 : CleanName n1 = CleanName n2 → FuncName n1 = FuncName n2.
Proof. intros H. by rewrite <-!lower_clean, H. Qed.
Lemma nodup_clean ns : NoDup (FuncName <$> ns) → NoDup (CleanName <$> ns).
Proof.
  induction ns as [|n ns IH]; simpl; [done|]. rewrite !NoDup_cons. intros [H1 H2]. split; [|by apply IH].
  intros Hin. apply H1. apply elem_of_list_fmap in Hin as (m&Hm&Hin). apply func_clean in Hm. rewrite Hm. by apply elem_of_list_fmap_1.
Qed.
Lemma mapM_all {A B} (f : A → option B) l : (∀ x, x ∈ l → is_Some (f x)) → is_Some (mapM f l).
Proof. intros H. apply mapM_is_Some. apply Forall_forall. done. Qed.

(** Good names: the image is built. *)
Lemma image_good ps r0 :
  declare_all (run_cmd <$> ps) new_run_script = Some r0 →
  NoDup (FuncName <$> names ps) →
  (∀ p, p ∈ ps → pr_go p = true → usable E (pr_name p)) →
  (∀ p, p ∈ ps → pr_go p = false → no_space (CleanName (pr_name p)) = true ∧ CleanName (pr_name p) ≠ "") →
  ∃ d r, image_of ps = Some d ∧ im_run d = r0 ∧ docker_build E d = Some r ∧
    ∀ p, p ∈ ps → if pr_go p then started r (pr_name p) = Some (pr_name p)
                  else r !! CleanName (pr_name p) = Some (Sources [pr_name p]).
Proof.
  intros Hd Hf Hu Hpl.
  assert (NoDup (names ps)) as Hnd by by eapply NoDup_fmap_1.
  pose proof (nodup_clean _ Hf) as Hcl.
  destruct (arts_spec ps Hnd) as (A1&A2&A3&A4). pose proof (image_of_spec ps Hnd) as Him. rewrite Hd in Him.
  eexists _. cut (∃ r, docker_build E (ImageDir
      (dockerfile (ws_custom (arts ps)) (filter (λ x, ws_custom (arts ps) !! x.1 = None) (ws_dirs (arts ps))))
      (ws_dirs (arts ps)) r0) = Some r ∧ ∀ p, p ∈ ps → if pr_go p then started r (pr_name p) = Some (pr_name p)
                  else r !! CleanName (pr_name p) = Some (Sources [pr_name p])).
  { intros (r&H1&H2). exists r. split_and!; [exact Him|done|exact H1|exact H2]. }
  clear Him. unfold docker_build. simpl im_dirs. simpl im_dockerfile. set (ctx := ws_dirs (arts ps)) in *.
  set (custom := ws_custom (arts ps)) in *. unfold dockerfile.
  pose proof (custom_commands ps Hnd) as Hcc. fold custom in Hcc. rewrite Hcc. clear Hcc.
  set (plain := filter _ ctx).
  rewrite exec_app, stages_exec. set (cs := keys custom) in *.
  assert (∀ c, c ∈ cs ↔ ∃ p, p ∈ ps ∧ pr_go p = true ∧ CleanName (pr_name p) = c) as Hcs.
  { intros c. unfold cs. rewrite keys_elem. split.
    - intros [x Hx]. by apply A2 in Hx as [_ ?].
    - intros H. exists (build_commands c). by apply A2. }
  assert (∀ p, p ∈ ps → ctx !! CleanName (pr_name p) = Some [pr_name p]) as Hctx.
  { intros p Hp. unfold ctx. rewrite A1. by rewrite in_dir_one. }
  destruct (mapM_all (stage_of ctx) cs) as [xs Hxs].
  { intros c (p&Hp&Hg&<-)%Hcs. destruct (Hu p Hp Hg) as (U1&U2&U3). unfold stage_of.
    assert (valid_stage (CleanName (pr_name p)) = true) as -> by by apply valid_stage_iff.
    rewrite Hctx by done. rewrite decide_False by tauto. simpl. rewrite decide_True by done. eauto. }
  rewrite Hxs. cbn [fmap option_fmap option_map]. rewrite app_nil_r.
  assert (NoDup (lower <$> cs)) as Hlow.
  { assert (Hs : ∀ c1 c2, c1 ∈ cs → c2 ∈ cs → lower c1 = lower c2 → c1 = c2).
    { intros c1 c2 (p1&H1&_&<-)%Hcs (p2&H2&_&<-)%Hcs. rewrite !lower_clean. intros Hl.
      unfold names in Hf. rewrite <-list_fmap_compose in Hf. f_equal.
      apply elem_of_list_lookup in H1 as [i Hi]. apply elem_of_list_lookup in H2 as [j Hj].
      assert (i = j); [|naive_solver]. eapply NoDup_lookup; [exact Hf| |].
      - rewrite list_lookup_fmap, Hi. done.
      - rewrite list_lookup_fmap, Hj. simpl. by rewrite Hl. }
    pose proof (keys_nodup custom) as Hk. fold cs in Hk. clear -Hs Hk. clearbody cs.
    induction cs as [|c cs IH]; simpl; [constructor|]. apply NoDup_cons in Hk as [Hk1 Hk2]. apply NoDup_cons. split.
    - intros (d&Hd&Hin)%elem_of_list_fmap. apply Hk1. rewrite (Hs c d); [done|set_solver|set_solver|done].
    - apply IH; [|done]. intros. apply Hs; [set_solver|set_solver|done]. }
  cbn [app exec_all exec]. rewrite exec_app.
  assert (∀ c, c ∈ keys plain ↔ ∃ p, p ∈ ps ∧ pr_go p = false ∧ CleanName (pr_name p) = c) as Hplain.
  { intros c. rewrite keys_elem. unfold plain. split.
    - intros [l Hl]. apply map_filter_lookup_Some in Hl as [Hl Hc]. simpl in Hc.
      unfold ctx in Hl. rewrite A1 in Hl. destruct (in_dir c (names ps)) as [|n l'] eqn:Ed; [done|].
      assert (n ∈ in_dir c (names ps)) as Hn by (rewrite Ed; set_solver).
      apply elem_of_list_filter in Hn as [Hn1 Hn2]. apply elem_of_list_fmap in Hn2 as (p&->&Hp). exists p. split_and!; [done| |done].
      destruct (pr_go p) eqn:Eg; [|done]. exfalso.
      assert (custom !! c = Some (build_commands c)) as Hcc by (apply A2; eauto). congruence.
    - intros (p&Hp&Hg&<-). exists [pr_name p]. apply map_filter_lookup_Some. split; [by apply Hctx|]. simpl.
      apply eq_None_not_Some. intros [x Hx]. apply A2 in Hx as (_&q&Hq&Hgq&Hcq).
      assert (p = q) as <-; [|congruence].
      unfold names in Hcl. rewrite <-list_fmap_compose in Hcl.
      apply elem_of_list_lookup in Hp as [i Hi]. apply elem_of_list_lookup in Hq as [j Hj].
      assert (i = j); [|naive_solver]. eapply NoDup_lookup; [exact Hcl| |].
      + rewrite list_lookup_fmap, Hi. done.
      + rewrite list_lookup_fmap, Hj. simpl. by rewrite Hcq. }
  destruct (plain_exec ctx (keys plain) None (base_root E "gcr.io/distroless/base-debian12") (reverse xs)) as (r1&Hr1&Hl1).
  { intros c (p&Hp&Hg&<-)%Hplain. destruct (Hpl p Hp Hg). split_and!; [done|done|]. rewrite Hctx by done. eauto. }
  rewrite Hr1.
  assert (∀ c, c ∈ cs → ∃ q, ctx !! c = Some [q] ∧ CleanName q = c ∧ pick (reverse xs) c = Some (Program c q)) as Hpick.
  { intros c Hc. destruct (pick_in ctx cs xs [] c Hxs Hc Hlow) as (l&q&H1&H2&H3). rewrite app_nil_r in H3.
    apply Hcs in Hc as (p&Hp&_&<-). rewrite Hctx in H1 by done. injection H1 as <-. simpl in H2. case_decide; [|done].
    injection H2 as <-. exists (pr_name p). by rewrite Hctx. }
  destruct (copies_ok ctx cs None r1 (reverse xs)) as [b' Hb'].
  { intros c Hc. destruct (Hpick c Hc) as (q&_&_&->). eauto. }
  rewrite Hb'. destruct (copies_exec ctx cs None r1 (reverse xs) b' Hb') as (r'&->&Hr'). exists r'. split; [done|].
  intros p Hp. specialize (Hr' (CleanName (pr_name p))). destruct (pr_go p) eqn:Eg.
  - assert (CleanName (pr_name p) ∈ cs) as Hin by (apply Hcs; eauto). rewrite decide_True in Hr' by done.
    destruct Hr' as [_ Hr']. destruct (Hpick _ Hin) as (q&Hq&_&Hpk). rewrite Hpk in Hr'. unfold started. rewrite Hr', decide_True by done.
    rewrite Hctx in Hq by done. by simplify_eq.
  - assert (CleanName (pr_name p) ∈ keys plain) as Hin by (apply Hplain; eauto).
    rewrite decide_False in Hr'.
    + rewrite Hr', Hl1, decide_True by done. by rewrite Hctx.
    + intros (q&Hq&Hgq&Hcq)%Hcs. apply Hplain in Hin as (p'&Hp'&Hg'&Hc').
      assert (p = q) as <-; [|congruence].
      unfold names in Hcl. rewrite <-list_fmap_compose in Hcl.
      apply elem_of_list_lookup in Hp as [i Hi]. apply elem_of_list_lookup in Hq as [j Hj].
      assert (i = j); [|naive_solver]. eapply NoDup_lookup; [exact Hcl| |].
      * rewrite list_lookup_fmap, Hi. done.
      * rewrite list_lookup_fmap, Hj. simpl. by rewrite Hcq.
Qed.
(** And only then, if all are golang processes. *)
Lemma image_needs ps :
  NoDup (names ps) → Forall (λ p, pr_go p = true) ps → image_works E ps →
  NoDup (FuncName <$> names ps) ∧ ∀ p, p ∈ ps → usable E (pr_name p).
Proof.
  intros Hnd Hgo (d&r&Hd&Hb&Hst). rewrite Forall_forall in Hgo.
  destruct (arts_spec ps Hnd) as (A1&A2&A3&A4). pose proof (image_of_spec ps Hnd) as Him.
  destruct (declare_all _ _) as [r0|]; [|congruence]. rewrite Hd in Him. injection Him as ->.
  unfold docker_build in Hb. simpl im_dirs in Hb. simpl im_dockerfile in Hb. set (ctx := ws_dirs (arts ps)) in *.
  set (custom := ws_custom (arts ps)) in *. unfold dockerfile in Hb.
  pose proof (custom_commands ps Hnd) as Hcc. fold custom in Hcc. rewrite Hcc in Hb. clear Hcc.
  set (plain := filter _ ctx) in Hb.
  rewrite exec_app, stages_exec in Hb. set (cs := keys custom) in *.
  assert (∀ c, c ∈ cs ↔ ∃ p, p ∈ ps ∧ pr_go p = true ∧ CleanName (pr_name p) = c) as Hcs.
  { intros c. unfold cs. rewrite keys_elem. split.
    - intros [x Hx]. by apply A2 in Hx as [_ ?].
    - intros H. exists (build_commands c). by apply A2. }
  destruct (mapM (stage_of ctx) cs) as [xs|] eqn:Hxs; [|done].
  cbn [fmap option_fmap option_map] in Hb. rewrite app_nil_r in Hb. cbn [app exec_all exec] in Hb.
  assert (plain = ∅) as Hpe.
  { apply map_empty. intros c. apply eq_None_not_Some. intros [l Hl]. apply map_filter_lookup_Some in Hl as [Hl Hc]. simpl in Hc.
    unfold ctx in Hl. rewrite A1 in Hl. destruct (in_dir c (names ps)) as [|n l'] eqn:Ed; [done|].
    assert (n ∈ in_dir c (names ps)) as Hn by (rewrite Ed; set_solver).
    apply elem_of_list_filter in Hn as [Hn1 Hn2]. apply elem_of_list_fmap in Hn2 as (p&->&Hp).
    assert (custom !! c = Some (build_commands c)) as Hcc by (apply A2; split; [done|]; exists p; auto). congruence. }
  assert (keys plain = []) as Hk0.
  { rewrite Hpe. unfold keys. rewrite dom_empty_L, elements_empty. done. }
  rewrite Hk0 in Hb. cbn [fmap list_fmap app] in Hb.
  destruct (exec_all E ctx _ _) as [b'|] eqn:Hx; [|done].
  destruct (copies_exec _ _ _ _ _ _ Hx) as (r'&->&Hr'). injection Hb as ->.
  assert (∀ p, p ∈ ps → usable E (pr_name p)) as Hus.
  { intros p Hp. assert (CleanName (pr_name p) ∈ cs) as Hin by (apply Hcs; eauto).
    apply mapM_Some in Hxs. apply elem_of_list_lookup in Hin as [i Hi].
    destruct (Forall2_lookup_l _ _ _ _ _ Hxs Hi) as (x&_&Hs). destruct (stage_inv _ _ _ Hs) as (?&?&_&_&_&Hv&?&?).
    split_and!; [by apply valid_stage_iff|done|done]. }
  split; [|done].
  assert (∀ p q, p ∈ ps → q ∈ ps → FuncName (pr_name p) = FuncName (pr_name q) → pr_name p = pr_name q) as Hinj.
  { intros p q Hp Hq Hf. destruct (decide (CleanName (pr_name p) = CleanName (pr_name q))) as [Hc|Hc].
    - pose proof (Hst p Hp) as S1. pose proof (Hst q Hq) as S2. unfold started in S1, S2. rewrite Hc in S1. congruence.
    - exfalso. destruct (pick_clash ctx cs xs (CleanName (pr_name p)) (CleanName (pr_name q)) Hxs) with (b := @nil (option string * root)) as [Hn|Hn].
      + apply Hcs; eauto.
      + apply Hcs; eauto.
      + done.
      + by rewrite !lower_clean.
      + set_solver.
      + specialize (Hr' (CleanName (pr_name p))). rewrite decide_True in Hr' by (apply Hcs; eauto). simpl in Hn. rewrite Hn in Hr'. by destruct Hr' as [[? ?] _].
      + specialize (Hr' (CleanName (pr_name q))). rewrite decide_True in Hr' by (apply Hcs; eauto). simpl in Hn. rewrite Hn in Hr'. by destruct Hr' as [[? ?] _]. }
  clear -Hnd Hinj. unfold names in *. induction ps as [|p ps IH]; simpl in *; [constructor|].
  apply NoDup_cons in Hnd as [Hn Hnd]. apply NoDup_cons. split.
  - intros Hin. apply elem_of_list_fmap in Hin as (n&Hf&Hin). apply elem_of_list_fmap in Hin as (q&->&Hq). apply Hn.
    rewrite (Hinj p q); [by apply elem_of_list_fmap_1|set_solver|set_solver|done].
  - apply IH; [done|]. intros. apply Hinj; set_solver.
Qed.
End docker.


(** ** Deployments *)
Lemma image_step c d d' :
  add_image c d = Some d' →
  dp_instances d' = dp_instances d ∧ (∀ n, n +:+ ".instance" ∈ dp_visited d' ↔ n +:+ ".instance" ∈ dp_visited d) ∧
  (∀ n, n +:+ ".artifacts" ∈ dp_visited d' ↔ n = CleanName (ct_name c) ∨ n +:+ ".artifacts" ∈ dp_visited d) ∧
  (∀ k, k ≠ CleanName (ct_name c) → dp_images d' !! k = dp_images d !! k) ∧
  (CleanName (ct_name c) +:+ ".artifacts" ∉ dp_visited d →
   is_Some (image_of (ct_procs c)) ∧ dp_images d' !! CleanName (ct_name c) = image_of (ct_procs c)).
Proof.
  unfold add_image. cbv zeta. case_decide as Hv.
  - intros [= <-]. split_and!; [done|done| |done|done]. intros n. split; [by right|]. intros [->|?]; done.
  - destruct (image_of (ct_procs c)) as [i|] eqn:Ei; [|done]. intros [= <-]. simpl. rewrite clean_clean. split_and!.
    + done.
    + intros n. rewrite elem_of_union, elem_of_singleton. split; [|by right]. intros [H|H]; [|done]. by apply eq_sym, key_ne in H.
    + intros n. rewrite elem_of_union, elem_of_singleton. split; intros [H|H]; try by right.
      * left. by apply key_inj in H.
      * left. by rewrite H.
    + intros k Hk. by rewrite lookup_insert_ne.
    + intros _. rewrite lookup_insert. eauto.
Qed.
Lemma images_step cs : ∀ d d',
  all_of add_image cs d = Some d' →
  dp_instances d' = dp_instances d ∧ (∀ n, n +:+ ".instance" ∈ dp_visited d' ↔ n +:+ ".instance" ∈ dp_visited d) ∧
  (∀ k, k ∉ CleanName ∘ ct_name <$> cs → dp_images d' !! k = dp_images d !! k) ∧
  (NoDup (CleanName ∘ ct_name <$> cs) → (∀ c, c ∈ cs → CleanName (ct_name c) +:+ ".artifacts" ∉ dp_visited d) →
   ∀ c, c ∈ cs → is_Some (image_of (ct_procs c)) ∧ dp_images d' !! CleanName (ct_name c) = image_of (ct_procs c)).
Proof.
  induction cs as [|c cs IH]; intros d d'; cbn [all_of fmap list_fmap].
  - intros [= <-]. split_and!; [done|done|done|]. intros _ _ c Hc. set_solver.
  - destruct (add_image c d) as [d1|] eqn:E1; [|done]. intros H.
    destruct (image_step _ _ _ E1) as (S1&S2&S3&S4&S5). destruct (IH _ _ H) as (I1&I2&I3&I4). split_and!.
    + congruence.
    + intros n. by rewrite I2.
    + intros k Hk. apply not_elem_of_cons in Hk as [Hk1 Hk2]. rewrite I3 by done. by apply S4.
    + intros Hnd Hv. apply NoDup_cons in Hnd as [Hn Hnd]. intros x [->|Hx]%elem_of_cons.
      * destruct S5 as [? S5]; [apply Hv; set_solver|]. split; [done|]. rewrite <-S5. by apply I3.
      * apply I4; [done| |done]. intros y Hy. rewrite S3. intros [Heq|Hin].
        -- apply Hn. change (CleanName (ct_name c)) with ((CleanName ∘ ct_name) c) in Heq.
           simpl in *. rewrite <-Heq. by apply (elem_of_list_fmap_1 (CleanName ∘ ct_name)).
        -- eapply Hv; [|done]. set_solver.
Qed.
Lemma images_some cs : ∀ d, (∀ c, c ∈ cs → is_Some (image_of (ct_procs c))) → is_Some (all_of add_image cs d).
Proof.
  induction cs as [|c cs IH]; intros d H; cbn [all_of]; [eauto|].
  assert (is_Some (add_image c d)) as [d1 ->].
  { unfold add_image. cbv zeta. case_decide; [eauto|]. destruct (H c) as [i ->]; [set_solver|eauto]. }
  apply IH. intros. apply H. set_solver.
Qed.
Lemma containers_step cs : ∀ d,
  NoDup (ct_name <$> cs) → (∀ c, c ∈ cs → ct_name c +:+ ".instance" ∉ dp_visited d) →
  match all_of add_container cs d with
  | Some d' => dp_images d' = dp_images d ∧ NoDup (CleanName ∘ ct_name <$> cs) ∧
      (∀ c, c ∈ cs → dp_instances d !! CleanName (ct_name c) = None) ∧
      (∀ k, dp_instances d' !! k = if decide (k ∈ CleanName ∘ ct_name <$> cs) then Some k else dp_instances d !! k)
  | None => ¬ (NoDup (CleanName ∘ ct_name <$> cs) ∧ ∀ c, c ∈ cs → dp_instances d !! CleanName (ct_name c) = None) end.
Proof.
  induction cs as [|c cs IH]; intros d Hnd Hv; cbn [all_of].
  - split_and!; [done|constructor|set_solver|]. intros k. by rewrite decide_False by set_solver.
  - assert (add_container c d = match dp_instances d !! CleanName (ct_name c) with
       | Some _ => None
       | None => Some (Deployment ({[ct_name c +:+ ".instance"]} ∪ dp_visited d) (dp_images d)
                         (<[CleanName (ct_name c) := CleanName (ct_name c)]> (dp_instances d))) end) as ->.
    { unfold add_container. cbv zeta. rewrite decide_False by (apply Hv; set_solver). done. }
    destruct (dp_instances d !! CleanName (ct_name c)) as [x|] eqn:Ei.
    { intros [_ H]. rewrite (H c) in Ei by set_solver. done. }
    cbn [fmap list_fmap] in *. apply NoDup_cons in Hnd as [Hn Hnd].
    match goal with |- context [all_of add_container cs ?d1] => specialize (IH d1 Hnd) end. simpl dp_visited in IH.
    simpl dp_instances in IH. simpl dp_images in IH.
    assert (∀ x, x ∈ cs → CleanName (ct_name x) ∈ CleanName ∘ ct_name <$> cs) as Hin.
    { intros x Hx. by apply (elem_of_list_fmap_1 (CleanName ∘ ct_name)). }
    destruct (all_of add_container cs _) as [d'|].
    + destruct IH as (I1&I2&I3&I4).
      { intros x Hx. rewrite elem_of_union, elem_of_singleton. intros [Heq|H]; [|eapply Hv; [|done]; set_solver].
        apply key_inj in Heq. apply Hn. rewrite <-Heq. by apply elem_of_list_fmap_1. }
      assert ((CleanName ∘ ct_name) c ∉ CleanName ∘ ct_name <$> cs) as Hc.
      { intros (x&Hx&Hxin)%elem_of_list_fmap. specialize (I3 x Hxin). simpl in Hx. rewrite <-Hx, lookup_insert in I3. done. }
      split_and!.
      * done.
      * apply NoDup_cons. done.
      * intros x [->|Hx]%elem_of_cons; [done|]. specialize (I3 x Hx). rewrite lookup_insert_ne in I3; [done|].
        intros Heq. apply Hc. simpl. rewrite Heq. by apply Hin.
      * intros k. rewrite I4. destruct (decide (k ∈ CleanName ∘ ct_name <$> cs)) as [Hk|Hk].
        -- rewrite decide_True by set_solver. done.
        -- destruct (decide (k = CleanName (ct_name c))) as [->|Hne].
           ++ rewrite lookup_insert, decide_True; [done|]. apply elem_of_cons. by left.
           ++ rewrite lookup_insert_ne by done. rewrite decide_False; [done|]. intros [?|?]%elem_of_cons; done.
    + intros [H1 H2]. apply NoDup_cons in H1 as [H1 H3]. apply IH.
      * intros x Hx. rewrite elem_of_union, elem_of_singleton. intros [Heq|H]; [|eapply Hv; [|done]; set_solver].
        apply key_inj in Heq. apply Hn. rewrite <-Heq. by apply elem_of_list_fmap_1.
      * split; [done|]. intros x Hx. rewrite lookup_insert_ne; [apply H2; set_solver|].
        intros Heq. apply H1. simpl. rewrite Heq. by apply Hin.
Qed.
Lemma deploy_spec cs :
  NoDup (ct_name <$> cs) →
  match deploy cs with
  | Some d => NoDup (CleanName ∘ ct_name <$> cs) ∧
      (∀ k, dp_instances d !! k = if decide (k ∈ CleanName ∘ ct_name <$> cs) then Some k else None) ∧
      (∀ c, c ∈ cs → is_Some (image_of (ct_procs c)) ∧ dp_images d !! CleanName (ct_name c) = image_of (ct_procs c)) ∧
      (∀ k, k ∉ CleanName ∘ ct_name <$> cs → dp_images d !! k = None)
  | None => ¬ (NoDup (CleanName ∘ ct_name <$> cs) ∧ ∀ c, c ∈ cs → is_Some (image_of (ct_procs c))) end.
Proof.
  intros Hnd. unfold deploy. destruct (all_of add_image cs new_deployment) as [d1|] eqn:E1.
  - destruct (images_step _ _ _ E1) as (I1&I2&I3&I4).
    pose proof (containers_step cs d1 Hnd) as Hc. destruct (all_of add_container cs d1) as [d|].
    + destruct Hc as (C1&C2&C3&C4).
      { intros c Hc. rewrite I2. set_solver. }
      split_and!.
      * done.
      * intros k. rewrite C4, I1. simpl. by rewrite lookup_empty.
      * intros c Hc. rewrite C1. apply I4; [done| |done]. simpl. set_solver.
      * intros k Hk. rewrite C1, I3 by done. simpl. apply lookup_empty.
    + intros [H1 H2]. apply Hc.
      * intros c Hin. rewrite I2. set_solver.
      * split; [done|]. intros c Hin. rewrite I1. simpl. apply lookup_empty.
  - intros [_ H]. destruct (images_some cs new_deployment H) as [? ?]. congruence.
Qed.
