From Verif Require Export NsBuild_Spec.
From Coq Require Import Lia.
Set Default Proof Using "Type".

Lemma lit_plain s : plain s → lit_rest (s +:+ String dquote "") = Some s.
Proof.
  induction s as [|c r IH]; [done|]. intros (H1 & H2 & H3 & H4). change (String c r +:+ String dquote "") with (String c (r +:+ String dquote "")). cbn [lit_rest].
  rewrite !bool_decide_eq_false_2 by done. by rewrite (IH H4).
Qed.
Lemma go_quote s : plain s → go_string (quote s) = Some s.
Proof. intros H. unfold quote, go_string. rewrite bool_decide_eq_true_2 by done. by apply lit_plain. Qed.

#[local] Arguments go_string : simpl never.
#[local] Arguments quote : simpl never.

(** ** The constructor call *)
Lemma ctor_args_some vars : ∀ args, length vars = length args → (∀ a, a ∈ args → ¬ is_meta a) → is_Some (ctor_args vars args).
Proof.
  induction vars as [|x vars IH]; intros [|a args] HL HM; try done; cbn.
  destruct (IH args) as [[g e] E]; [by injection HL|intros a' Ha; apply HM; by right|]. rewrite E.
  destruct a; [|by eexists..]. by destruct (HM (GMeta name)); [left|].
Qed.

Section call.
  Context (get : string → option val).
  (** environments agree on the variables already set *)
  Lemma run_gets_other gets : ∀ env env' x, run_gets get env gets = Some env' → (∀ t n, (x, t, n) ∉ gets) → env' !! x = env !! x.
  Proof.
    induction gets as [|[[y t] n] r IH]; intros env env' x H N; cbn in H; [by injection H as <-|].
    apply bind_Some in H as (n' & _ & H). apply bind_Some in H as (v & _ & H).
    rewrite (IH _ _ x H); [|intros t' m Hx; apply (N t' m); by right]. apply lookup_insert_ne. intros ->. by apply (N t n); left.
  Qed.
  (** every Get succeeds iff all node arguments are available, and then the expressions evaluate to the arguments *)
  Lemma run_args vars : ∀ args g e env, length vars = length args → (∀ a, a ∈ args → plain_arg a) →
    ctor_args vars args = Some (g, e) →
    (∀ i j x n t m u, i < j → vars !! i = Some x → args !! i = Some (GNode n t) → vars !! j = Some x → args !! j = Some (GNode m u) → False) →
    match run_gets get env g with
    | Some env' => mapM (eval env') e = mapM (arg_value get) args ∧ is_Some (mapM (eval env') e)
    | None => mapM (arg_value get) args = None
    end.
  Proof.
    induction vars as [|x vars IH]; intros [|a args] g e env HL HP H ND; try done.
    { injection H as <- <-. cbn. split; [done|by eexists]. }
    cbn in H. destruct a as [m|v|n t]; [done| |]; destruct (ctor_args vars args) as [[g1 e1]|] eqn:E; try done; injection H as <- <-.
    - specialize (IH args g1 e1 env). feed specialize IH; [by injection HL|intros a Ha; apply HP; by right|done| |].
      { intros i j y n t m u L H1 H2 H3 H4. apply (ND (S i) (S j) y n t m u); [lia|done..]. }
      destruct (run_gets get env g1) as [env'|]; cbn.
      + destruct IH as [IH1 [vs IH2]]. rewrite go_quote by (apply (HP (GValue v)); left). cbn. rewrite <-IH1, IH2. cbn. split; [done|by eexists].
      + by rewrite IH.
    - cbn. rewrite go_quote by (apply (HP (GNode n t)); left). cbn. destruct (get n) as [v|] eqn:G; cbn; [|done].
      specialize (IH args g1 e1 (<[x:=v]> env)). feed specialize IH; [by injection HL|intros a Ha; apply HP; by right|done| |].
      { intros i j y n' t' m u L H1 H2 H3 H4. apply (ND (S i) (S j) y n' t' m u); [lia|done..]. }
      destruct (run_gets get (<[x:=v]> env) g1) as [env'|] eqn:RG.
      + destruct IH as [IH1 [vs IH2]]. assert (env' !! x = Some v) as ->.
        { rewrite (run_gets_other _ _ _ x RG); [by rewrite lookup_insert|]. intros t' m Hx.
          (* x is in g1 *) clear -E Hx ND HL.
          assert (∀ vars args g1 e1, ctor_args vars args = Some (g1, e1) → (x, t', m) ∈ g1 → ∃ j n, vars !! j = Some x ∧ args !! j = Some (GNode n t')) as K.
          { clear. induction vars as [|y vars IH]; intros [|a args] g1 e1 E Hx; try (injection E as <- <-; by apply elem_of_nil in Hx).
            cbn in E. destruct a as [?|?|n t]; [done| |]; destruct (ctor_args vars args) as [[g2 e2]|] eqn:E2; try done; injection E as <- <-.
            - destruct (IH _ _ _ E2 Hx) as (j & n & ? & ?). by exists (S j), n.
            - apply elem_of_cons in Hx as [[= -> -> ->]|Hx]; [by exists 0, n|]. destruct (IH _ _ _ E2 Hx) as (j & n' & ? & ?). by exists (S j), n'. }
          destruct (K _ _ _ _ E Hx) as (j & n' & H1 & H2). apply (ND 0 (S j) x n t n' t'); [lia|done..]. }
        cbn. rewrite <-IH1, IH2. cbn. split; [done|by eexists].
      + by rewrite IH.
  Qed.
End call.

(** compile checks *)
Lemma decls_ok_spec gets : ∀ declared,
  (∀ i x t n, gets !! i = Some (x, t, n) → x ∉ declared ∧ t ∉ declared ∧ x ≠ "n" ∧ x ≠ "_" ∧ x ≠ "nil" ∧ is_Some (go_string n) ∧
     ∀ j y u m, i < j → gets !! j = Some (y, u, m) → x ≠ y ∧ x ≠ u) →
  decls_ok declared gets = Some (reverse (gets.*1.*1) ++ declared).
Proof.
  induction gets as [|[[x t] n] r IH]; intros declared H; [done|]. rewrite !fmap_cons. cbn [decls_ok fst].
  destruct (H 0 x t n eq_refl) as (H1 & H2 & H3 & H4 & H5 & H6 & H7). rewrite bool_decide_eq_true_2 by done.
  rewrite IH.
  - by rewrite reverse_cons, <-app_assoc.
  - intros i y u m Hi. destruct (H (S i) y u m Hi) as (J1 & J2 & J3 & J4 & J5 & J6 & J7). destruct (H7 (S i) y u m) as [N1 N2]; [lia|done|].
    rewrite !not_elem_of_cons. split_and!; try done. intros j y' u' m' L Hj. apply (J7 (S j) y' u' m'); [lia|done].
Qed.

Lemma ctor_args_gets vars : ∀ args g e, ctor_args vars args = Some (g, e) →
  (∀ i x t n, g !! i = Some (x, t, n) → ∃ k m, n = quote m ∧ vars !! k = Some x ∧ args !! k = Some (GNode m t) ∧
     ∀ j y u p, i < j → g !! j = Some (y, u, p) → ∃ k' m', k < k' ∧ vars !! k' = Some y ∧ args !! k' = Some (GNode m' u)) ∧
  (∀ k x m t, vars !! k = Some x → args !! k = Some (GNode m t) → ∃ i, g !! i = Some (x, t, quote m)) ∧
  (∀ ex, ex ∈ e → (∃ v, ex = ELit (quote v) ∧ GValue v ∈ args) ∨ (∃ x, ex = EVar x ∧ x ∈ g.*1.*1)).
Proof.
  induction vars as [|x vars IH]; intros args g e H.
  { destruct args; injection H as <- <-; split_and!; try done; intros ex Hex; by apply elem_of_nil in Hex. }
  destruct args as [|a args].
  { injection H as <- <-. split_and!; try done. intros ex Hex. by apply elem_of_nil in Hex. }
  cbn in H. destruct a as [m|v|n t]; [done| |]; destruct (ctor_args vars args) as [[g1 e1]|] eqn:E; try done; injection H as <- <-;
    destruct (IH _ _ _ E) as (I1 & I2 & I3).
  - split_and!.
    + intros i y t n Hi. destruct (I1 i y t n Hi) as (k & m & -> & H1 & H2 & H3). exists (S k), m. split_and!; try done.
      intros j y' u p L Hj. destruct (H3 j y' u p L Hj) as (k' & m' & ? & ? & ?). exists (S k'), m'. split_and!; [lia|done|done].
    + intros [|k] y m t H1 H2; [done|]. by apply (I2 k).
    + intros ex Hex. apply elem_of_cons in Hex as [->|Hex]; [left; exists v; split; [done|left]|].
      destruct (I3 ex Hex) as [(v' & ? & ?)|?]; [left; exists v'; split; [done|by right]|by right].
  - split_and!.
    + intros [|i] y t' n' Hi.
      * injection Hi as <- <- <-. exists 0, n. split_and!; try done. intros [|j] y u p L Hj; [lia|].
        destruct (I1 j y u p Hj) as (k & m & -> & H1 & H2 & _). exists (S k), m. split_and!; [lia|done|done].
      * destruct (I1 i y t' n' Hi) as (k & m & -> & H1 & H2 & H3). exists (S k), m. split_and!; try done.
        intros [|j] y' u p L Hj; [lia|]. destruct (H3 j y' u p) as (k' & m' & ? & ? & ?); [lia|done|]. exists (S k'), m'. split_and!; [lia|done|done].
    + intros [|k] y m t' H1 H2; [injection H1 as <-; injection H2 as <- <-; by exists 0|]. destruct (I2 k y m t' H1 H2) as [i ?]. by exists (S i).
    + intros ex Hex. apply elem_of_cons in Hex as [->|Hex]; [right; exists x; split; [done|left]|].
      destruct (I3 ex Hex) as [(v' & ? & ?)|(y & ? & ?)]; [left; exists v'; split; [done|by right]|right; exists y; split; [done|by right]].
Qed.

Lemma body_compiles c args b : ctor_body c args = Some b → names_ok c args → (∀ a, a ∈ args → plain_arg a) → compiles b = true.
Proof.
  unfold ctor_body. case_bool_decide as L; [|done]. destruct (ctor_args (tail (c_args c)) args) as [[g e]|] eqn:E; [|done].
  intros [= <-] N P. destruct (ctor_args_gets _ _ _ _ E) as (I1 & I2 & I3). unfold compiles. cbn [b_gets b_pkg b_exprs].
  assert (∀ m t k, args !! k = Some (GNode m t) → plain m) as PN.
  { intros m t k Hk. apply elem_of_list_lookup_2 in Hk. apply (P _ Hk). }
  rewrite decls_ok_spec.
  - rewrite app_nil_r. apply andb_true_intro. split.
    + apply bool_decide_eq_true. rewrite elem_of_reverse. intros Hx. apply elem_of_list_fmap in Hx as ([x t] & Ec & Hx). cbn in Ec.
      apply elem_of_list_fmap in Hx as ([[x' t'] n] & Ex & Hx). cbn in Ex. injection Ex as -> ->.
      apply elem_of_list_lookup in Hx as [i Hx]. destruct (I1 _ _ _ _ Hx) as (k & m & _ & H1 & H2 & _).
      destruct (N k _ _ _ H1 H2) as (_ & _ & _ & X & _). by apply X.
    + apply forallb_forall. intros ex Hex. apply elem_of_list_In in Hex. destruct (I3 ex Hex) as [(v & -> & Hv)|(x & -> & Hx)].
      * apply bool_decide_eq_true. rewrite go_quote; [by eexists|]. apply (P _ Hv).
      * apply bool_decide_eq_true. by apply elem_of_reverse.
  - intros i x t n Hi. destruct (I1 i x t n Hi) as (k & m & -> & H1 & H2 & H3).
    destruct (N k _ _ _ H1 H2) as (N1 & N2 & N3 & N4 & N5). split_and!; try done; try apply not_elem_of_nil.
    + rewrite go_quote by (by eapply PN). by eexists.
    + intros j y u p L' Hj. destruct (H3 j y u p L' Hj) as (k' & m' & L2 & ? & ?). by apply (N5 k' y m' u).
Qed.

Lemma body_runs get c args b : ctor_body c args = Some b → names_ok c args → (∀ a, a ∈ args → plain_arg a) →
  run_body get b = match mapM (arg_value get) args with Some vs => Called (c_name c) vs | None => Failed end.
Proof.
  intros H N P. unfold run_body. rewrite (body_compiles c args b H N P). unfold ctor_body in H. case_bool_decide as L; [|done].
  destruct (ctor_args (tail (c_args c)) args) as [[g e]|] eqn:E; [|done]. injection H as <-. cbn [b_gets b_exprs b_ctor].
  pose proof (run_args get (tail (c_args c)) args g e ∅) as R. feed specialize R; try done.
  - destruct (c_args c); [done|]. cbn in *. lia.
  - intros i j x n t m u Lt H1 H2 H3 H4. destruct (N i x n t H1 H2) as (_ & _ & _ & _ & X). by destruct (X j x m u Lt H3 H4).
  - destruct (run_gets get ∅ g) as [env'|]; [|by rewrite R]. destruct R as [R1 [vs R2]]. by rewrite <-R1, R2.
Qed.

(** ** The builder *)
Lemma firsts_app_in l x : x ∈ l → firsts (l ++ [x]) = firsts l.
Proof.
  induction l as [|y l IH]; [by intros ?%elem_of_nil|]. intros [->|H]%elem_of_cons; cbn.
  - f_equal. destruct (decide (y ∈ l)) as [Hy|Hy]; [by rewrite IH|].
    assert (∀ l, firsts (l ++ [y]) = firsts l ++ (if bool_decide (y ∈ l) then [] else [y])) as K.
    { clear. induction l as [|z l IH]; cbn; [done|]. rewrite IH. f_equal. destruct (decide (y = z)) as [->|N].
      - rewrite (bool_decide_eq_true_2 (z ∈ z :: l)) by (left). rewrite filter_app. f_equal. case_bool_decide; [done|].
        by rewrite filter_cons_False by tauto.
      - rewrite filter_app. f_equal. case_bool_decide as B.
        + rewrite bool_decide_eq_true_2 by (by right). done.
        + rewrite bool_decide_eq_false_2 by (rewrite not_elem_of_cons; done). by rewrite filter_cons_True. }
    rewrite K, bool_decide_eq_false_2, filter_app, filter_cons_False by tauto. by rewrite app_nil_r.
  - by rewrite IH.
Qed.
Lemma firsts_elem l x : x ∈ firsts l ↔ x ∈ l.
Proof.
  induction l as [|y l IH]; cbn; [done|]. rewrite !elem_of_cons, elem_of_list_filter, IH. destruct (decide (x = y)); tauto.
Qed.
Lemma firsts_app_notin l x : x ∉ l → firsts (l ++ [x]) = firsts l ++ [x].
Proof.
  induction l as [|y l IH]; cbn; [done|]. intros [N1 N2]%not_elem_of_cons. rewrite IH by done. rewrite filter_app. by rewrite filter_cons_True.
Qed.
Lemma firsts_NoDup l : NoDup (firsts l).
Proof.
  induction l as [|y l IH]; cbn; [constructor|]. constructor; [|by apply NoDup_filter]. rewrite elem_of_list_filter. tauto.
Qed.

Record binv (os : list bop) (b : nsb) : Prop := {
  bi_decl : ∀ n, declarations b !! n = first_decl n os;
  bi_req : ∀ n, required b !! n = last_desc req_of n os;
  bi_opt : ∀ n, optional b !! n = last_desc opt_of n os;
  bi_inst : instantiations b = firsts (omap inst_of os) }.

Lemma first_decl_app n os o : first_decl n (os ++ [o]) =
  match first_decl n os with Some s => Some s | None => match decl_of o with Some (m, s) => if bool_decide (m = n) then Some s else None | None => None end end.
Proof.
  unfold first_decl. rewrite omap_app, filter_app. destruct (filter (λ d, d.1 = n) (omap decl_of os)) as [|d r]; [|done].
  rewrite app_nil_l. cbn [omap list_omap]. destruct (decl_of o) as [[m s]|]; [|done]. case_bool_decide as B.
  - by rewrite filter_cons_True.
  - by rewrite filter_cons_False.
Qed.
Lemma last_desc_app f n os o : last_desc f n (os ++ [o]) =
  match f o with Some (m, d) => if bool_decide (m = n) then Some d else last_desc f n os | None => last_desc f n os end.
Proof.
  unfold last_desc. rewrite omap_app, filter_app. cbn [omap list_omap]. destruct (f o) as [[m d]|]; [|by rewrite filter_nil, app_nil_r].
  case_bool_decide as B; [rewrite filter_cons_True by done|rewrite filter_cons_False by done].
  - by rewrite filter_nil, last_snoc.
  - by rewrite filter_nil, app_nil_r.
Qed.
Lemma inst_app os o : firsts (omap inst_of (os ++ [o])) =
  match inst_of o with Some n => if bool_decide (n ∈ firsts (omap inst_of os)) then firsts (omap inst_of os) else firsts (omap inst_of os) ++ [n] | None => firsts (omap inst_of os) end.
Proof.
  rewrite omap_app. cbn. destruct (inst_of o) as [n|]; cbn; [|by rewrite app_nil_r]. case_bool_decide as B; rewrite firsts_elem in B.
  - by apply firsts_app_in.
  - by apply firsts_app_notin.
Qed.

Lemma bstep_inv os b o : binv os b → binv (os ++ [o]) (bstep b o).1 ∧
  (bstep b o).2 = match o with
                  | ODecl n _ | OCtor n _ _ => bool_decide (is_Some (decl_of o)) && bool_decide (first_decl n os = None)
                  | _ => true end.
Proof.
  intros [D R O I].
  assert (∀ n src, decl_of o = Some (n, src) → req_of o = None → opt_of o = None → inst_of o = None →
    binv (os ++ [o]) (declare b n src).1 ∧ (declare b n src).2 = bool_decide (first_decl n os = None)) as KD.
  { intros n src ED ER EO EI. unfold declare. destruct (declarations b !! n) as [s|] eqn:E.
    - split.
      + constructor; intros; cbn [fst].
        * rewrite first_decl_app, <-D. destruct (declarations b !! n0) eqn:E0; [done|]. rewrite ED. rewrite bool_decide_eq_false_2; [done|]. intros ->. congruence.
        * by rewrite last_desc_app, ER.
        * by rewrite last_desc_app, EO.
        * by rewrite inst_app, EI.
      + rewrite D in E. rewrite E. by rewrite bool_decide_eq_false_2.
    - split.
      + constructor; intros; cbn [fst declarations required optional instantiations].
        * rewrite first_decl_app, <-D, ED. destruct (decide (n = n0)) as [<-|N].
          -- rewrite lookup_insert, E. by rewrite bool_decide_eq_true_2.
          -- rewrite lookup_insert_ne by done. rewrite bool_decide_eq_false_2 by done. by destruct (declarations b !! n0).
        * by rewrite last_desc_app, ER.
        * by rewrite last_desc_app, EO.
        * by rewrite inst_app, EI.
      + rewrite D in E. by rewrite bool_decide_eq_true_2. }
  assert (decl_of o = None → ∀ n, first_decl n (os ++ [o]) = first_decl n os) as NDL.
  { intros E n. rewrite first_decl_app, E. by destruct (first_decl n os). }
  destruct o as [n d|n d|n|n code|n c args]; cbn [bstep].
  - split; [|done]. constructor; intros; cbn [fst declarations required optional instantiations required_arg].
    + by rewrite NDL.
    + rewrite last_desc_app. cbn. case_bool_decide as B; [subst; by rewrite lookup_insert|by rewrite lookup_insert_ne].
    + rewrite last_desc_app. apply O.
    + rewrite inst_app. apply I.
  - split; [|done]. constructor; intros; cbn [fst declarations required optional instantiations optional_arg].
    + by rewrite NDL.
    + rewrite last_desc_app. apply R.
    + rewrite last_desc_app. cbn. case_bool_decide as B; [subst; by rewrite lookup_insert|by rewrite lookup_insert_ne].
    + rewrite inst_app. apply I.
  - split; [|done]. unfold instantiate. constructor; intros; cbn [fst].
    + rewrite NDL by done. case_bool_decide; cbn; apply D.
    + rewrite last_desc_app. case_bool_decide; cbn; apply R.
    + rewrite last_desc_app. case_bool_decide; cbn; apply O.
    + rewrite inst_app. cbn [inst_of]. rewrite <-I. by case_bool_decide.
  - destruct (KD n (Raw code)) as [K1 K2]; try done.
  - unfold declare_constructor. destruct (ctor_body c args) as [bd|] eqn:E.
    + destruct (KD n (Gen bd)) as [K1 K2]; try done; [cbn; by rewrite E|]. split; [done|]. rewrite K2.
      rewrite (bool_decide_eq_true_2 (is_Some _)); [done|]. cbn. rewrite E. by eexists.
    + assert (decl_of (OCtor n c args) = None) as EN by (cbn; by rewrite E). split.
      * constructor; intros; cbn [fst]; [by rewrite NDL|rewrite last_desc_app; apply R|rewrite last_desc_app; apply O|rewrite inst_app; apply I].
      * rewrite EN. rewrite bool_decide_eq_false_2; [done|]. by intros [? ?].
Qed.

Lemma brun_app b l1 : ∀ l2, brun b (l1 ++ l2) = let '(b1, x1) := brun b l1 in let '(b2, x2) := brun b1 l2 in (b2, x1 ++ x2).
Proof.
  revert b. induction l1 as [|o l1 IH]; intros b l2; cbn; [by destruct (brun b l2)|]. destruct (bstep b o) as [b1 x] eqn:E.
  rewrite IH. destruct (brun b1 l1) as [b2 xs]. by destruct (brun b2 l2).
Qed.
Lemma brun_inv os : binv os (brun new_nsb os).1.
Proof.
  induction os as [|o os IH] using rev_ind.
  - constructor; intros; done.
  - rewrite brun_app. destruct (brun new_nsb os) as [b xs] eqn:E. cbn [fst] in IH. cbn [brun].
    pose proof (bstep_inv os b o IH) as [K _]. by destruct (bstep b o).
Qed.
Lemma brun_result os1 o os2 : (brun new_nsb (os1 ++ o :: os2)).2 !! length os1 = Some (bstep (brun new_nsb os1).1 o).2.
Proof.
  rewrite brun_app. assert (∀ b os, length (brun b os).2 = length os) as L.
  { intros b os. revert b. induction os as [|o' os IH]; intros b; cbn; [done|]. destruct (bstep b o') as [b1 x]. specialize (IH b1). destruct (brun b1 os). cbn in *. by rewrite IH. }
  specialize (L new_nsb os1). destruct (brun new_nsb os1) as [b1 x1]. cbn in L. cbn [brun fst]. destruct (bstep b1 o) as [b2 x]. destruct (brun b2 os2) as [b3 x3].
  cbn [snd]. rewrite lookup_app_r by lia. by rewrite L, Nat.sub_diag.
Qed.

(** ** The generated file *)
Lemma execs_app b l1 l2 : execs b (l1 ++ l2) = match execs b l1 with Some b' => execs b' l2 | None => None end.
Proof. revert b. induction l1 as [|s l1 IH]; intros b; cbn; [done|]. by destruct (exec b s). Qed.

Lemma ltm_rev {A} (n : string) (d : A) rs : list_to_map (M:=gmap string A) (reverse ((n, d) :: rs)) = list_to_map (reverse rs) ∪ {[n := d]}.
Proof. by rewrite reverse_cons, list_to_map_app. Qed.
Lemma exec_reqs rs : ∀ b, NoDup rs.*1 → (∀ n d, (n, d) ∈ rs → plain n ∧ plain d ∧ n ∉ rb_flags b) →
  execs b ((λ nd, SRequired (quote nd.1) (quote nd.2)) <$> rs) =
  Some (RB (list_to_map (reverse rs) ∪ rb_required b) (rb_optional b) (rb_inst b) (rb_defs b) (list_to_set rs.*1 ∪ rb_flags b)).
Proof.
  induction rs as [|[n d] rs IH]; intros b ND P.
  - cbn. destruct b; cbn. rewrite (left_id_L ∅ (∪)), (left_id_L ∅ (∪)). done.
  - cbn [fmap list_fmap execs exec fst snd]. destruct (P n d) as (P1 & P2 & P3); [left|]. rewrite !go_quote by done. cbn [mbind option_bind].
    rewrite bool_decide_eq_false_2 by done. cbn in ND. apply NoDup_cons in ND as [N1 ND]. rewrite IH; [|done|].
    + rewrite ltm_rev. cbn [rb_required rb_optional rb_inst rb_defs rb_flags fst list_to_set foldr]. f_equal. f_equal.
      * rewrite insert_union_singleton_l. by rewrite <-(assoc_L (∪)).
      * rewrite (assoc_L (∪)), (comm_L (∪) (list_to_set _) {[n]}). by rewrite <-(assoc_L (∪)).
    + intros n' d' Hn. destruct (P n' d') as (? & ? & Hf); [by right|]. split_and!; try done. cbn. rewrite not_elem_of_union, not_elem_of_singleton. split; [|done].
      intros ->. apply N1. by apply (elem_of_list_fmap_1 fst) in Hn.
Qed.
Lemma exec_opts rs : ∀ b, NoDup rs.*1 → (∀ n d, (n, d) ∈ rs → plain n ∧ plain d ∧ n ∉ rb_flags b) →
  execs b ((λ nd, SOptional (quote nd.1) (quote nd.2)) <$> rs) =
  Some (RB (rb_required b) (list_to_map (reverse rs) ∪ rb_optional b) (rb_inst b) (rb_defs b) (list_to_set rs.*1 ∪ rb_flags b)).
Proof.
  induction rs as [|[n d] rs IH]; intros b ND P.
  - cbn. destruct b; cbn. rewrite (left_id_L ∅ (∪)), (left_id_L ∅ (∪)). done.
  - cbn [fmap list_fmap execs exec fst snd]. destruct (P n d) as (P1 & P2 & P3); [left|]. rewrite !go_quote by done. cbn [mbind option_bind].
    rewrite bool_decide_eq_false_2 by done. cbn in ND. apply NoDup_cons in ND as [N1 ND]. rewrite IH; [|done|].
    + rewrite ltm_rev. cbn [rb_required rb_optional rb_inst rb_defs rb_flags fst list_to_set foldr]. f_equal. f_equal.
      * rewrite insert_union_singleton_l. by rewrite <-(assoc_L (∪)).
      * rewrite (assoc_L (∪)), (comm_L (∪) (list_to_set _) {[n]}). by rewrite <-(assoc_L (∪)).
    + intros n' d' Hn. destruct (P n' d') as (? & ? & Hf); [by right|]. split_and!; try done. cbn. rewrite not_elem_of_union, not_elem_of_singleton. split; [|done].
      intros ->. apply N1. by apply (elem_of_list_fmap_1 fst) in Hn.
Qed.
Lemma exec_insts is : ∀ b, (∀ n, n ∈ is → plain n) →
  execs b ((λ n, SInstantiate (quote n)) <$> is) = Some (RB (rb_required b) (rb_optional b) (rb_inst b ++ is) (rb_defs b) (rb_flags b)).
Proof.
  induction is as [|n is IH]; intros b P; cbn [fmap list_fmap execs exec].
  - destruct b. cbn. by rewrite app_nil_r.
  - rewrite go_quote by (apply P; left). cbn [mbind option_bind]. rewrite IH by (intros; apply P; by right). cbn. by rewrite <-app_assoc.
Qed.
Lemma exec_defs ds : ∀ b, NoDup ds.*1 → (∀ n s, (n, s) ∈ ds → plain n) →
  execs b ((λ nd, SDefine (quote nd.1) nd.2) <$> ds) = Some (RB (rb_required b) (rb_optional b) (rb_inst b) (list_to_map (reverse ds) ∪ rb_defs b) (rb_flags b)).
Proof.
  induction ds as [|[n s] ds IH]; intros b ND P; cbn [fmap list_fmap execs exec fst snd].
  - destruct b. cbn. by rewrite (left_id_L ∅ (∪)).
  - rewrite go_quote by (apply (P n s); left). cbn [mbind option_bind]. cbn in ND. apply NoDup_cons in ND as [N1 ND].
    rewrite IH; [|done|intros n' s' Hn; apply (P n' s'); by right]. rewrite ltm_rev. cbn [rb_required rb_optional rb_inst rb_defs rb_flags]. f_equal. f_equal.
    rewrite insert_union_singleton_l. by rewrite <-(assoc_L (∪)).
Qed.
