(** * Proofs about workflow services *)
From Verif Require Import GoSrc_Model GoSrc_Spec GoSrc_Proof WfSpec_Model WfSpec_Spec.

(** ** Comparing types *)
Lemma andp_true a b : andp a b = Some true ↔ a = Some true ∧ b = Some true.
Proof. destruct a as [[]|]; simpl; naive_solver. Qed.
Lemma ty_equals_true t : ∀ o, ty_equals t o = Some true → t = o.
Proof.
  induction t as [n|p n|t IH|t IH|t IH|k IHk v IHv|t IH|t IH|t IH| | | | |b IHb q IHq|n|]; intros o H; simpl in H; try done;
    destruct o; simpl in H; try done; try (by f_equal; apply IH).
  - injection H as H%bool_decide_eq_true. by subst.
  - injection H as H. apply andb_true_iff in H as [H1%bool_decide_eq_true H2%bool_decide_eq_true]. by subst.
  - apply andp_true in H as [H1 H2]. f_equal; auto.
  - apply andp_true in H as [H1 H2]. f_equal; auto.
  - injection H as H%bool_decide_eq_true. by subst.
Qed.
Lemma ty_equals_comparable t : ∀ o, comparable_type t → ∃ b, ty_equals t o = Some b ∧ (b = true ↔ t = o).
Proof.
  assert (∀ t o, (∃ b, ty_equals t o = Some b ∧ (t = o → b = true)) → ∃ b, ty_equals t o = Some b ∧ (b = true ↔ t = o)) as Hsuff.
  { intros t' o (b & H & Hb). exists b. split; [done|]. split; [intros ->; by apply ty_equals_true|done]. }
  induction t as [n|p n|t IH|t IH|t IH|k IHk v IHv|t IH|t IH|t IH| | | | |b IHb q IHq|n|]; intros o Hc; simpl in Hc; try done;
    apply Hsuff; simpl; try (eexists; split; [reflexivity|intros <-; try done; try (by rewrite bool_decide_eq_true_2);
      by rewrite !bool_decide_eq_true_2]; fail).
  1-3, 5-7: destruct o as [| |u|u|u| |u|u|u| | | | | | |]; try (eexists; split; [reflexivity|done]; fail);
    destruct (IH u Hc) as (b & -> & Hb); exists b; split; [done|intros [= ->]; by apply Hb].
  destruct Hc as [Hc1 Hc2]. destruct o as [| | | | |j w| | | | | | | | | |]; try (eexists; split; [reflexivity|done]; fail).
  destruct (IHk j Hc1) as (b1 & -> & H1). destruct (IHv w Hc2) as (b2 & -> & H2).
  destruct b1; simpl; [|exists false; split; [done|intros [= -> ->]; by apply H1]].
  exists b2. split; [done|]. intros [= -> ->]. by apply H2.
Qed.
Lemma same_types_true a : ∀ b, same_types_checked a b = Some true → a.*2 = b.*2.
Proof.
  intros b. unfold same_types_checked. case_bool_decide; [|done]. clear H. revert b.
  induction a as [|[n t] a IH]; intros [|[m u] b]; simpl; try done.
  intros [H1 H2]%andp_true. f_equal; [by apply ty_equals_true|]. exact (IH _ H2).
Qed.
Lemma same_types_comparable a : ∀ b, (∀ v, v ∈ a → comparable_type v.2) →
  ∃ r, same_types_checked a b = Some r ∧ (r = true ↔ a.*2 = b.*2).
Proof.
  intros b Ha. unfold same_types_checked. case_bool_decide as Hlen.
  2:{ exists false. split; [done|]. split; [done|]. intros H. destruct Hlen. by rewrite <- (fmap_length snd a), H, fmap_length. }
  clear Hlen. revert b. induction a as [|[n t] a IH]; intros [|[m u] b]; simpl.
  - exists true. done.
  - exists false. done.
  - exists false. done.
  - destruct (ty_equals_comparable t u) as (r & -> & Hr); [apply (Ha (n, t)); by left|].
    destruct IH with (b := b) as (r' & -> & Hr'); [intros; apply Ha; by right|].
    destruct r; simpl.
    + exists r'. split; [done|]. rewrite Hr'. rewrite (proj1 Hr eq_refl). split; [intros E; exact (f_equal (cons u) E)|by intros [= E]].
    + exists false. split; [done|]. split; [done|]. intros [= E _]. by apply Hr in E.
Qed.
Lemma func_equals_true f g : func_equals f g = Some true →
  fn_name f = fn_name g ∧ (fn_args f).*2 = (fn_args g).*2 ∧ (fn_rets f).*2 = (fn_rets g).*2.
Proof.
  unfold func_equals. intros [H1 [H2 H3]%andp_true]%andp_true. injection H1 as H1%bool_decide_eq_true.
  split_and!; [done|by apply same_types_true..].
Qed.
Lemma func_equals_comparable f g : (∀ v, v ∈ fn_args f ++ fn_rets f → comparable_type v.2) →
  ∃ b, func_equals f g = Some b ∧
    (b = true ↔ fn_name f = fn_name g ∧ (fn_args f).*2 = (fn_args g).*2 ∧ (fn_rets f).*2 = (fn_rets g).*2).
Proof.
  intros H. unfold func_equals.
  destruct (same_types_comparable (fn_args f) (fn_args g)) as (b1 & -> & H1); [set_solver|].
  destruct (same_types_comparable (fn_rets f) (fn_rets g)) as (b2 & -> & H2); [set_solver|].
  case_bool_decide as Hn; simpl; [|exists false; naive_solver]. destruct b1; simpl; [exists b2|exists false]; naive_solver.
Qed.

(** ** Interfaces *)
Lemma entries_elem {A} o site (m : gmap string A) n x : fair o → (n, x) ∈ entries o site m ↔ m !! n = Some x.
Proof. intros Ho. unfold entries. rewrite (Ho _ site). apply elem_of_map_to_list. Qed.

Lemma implements_true o s i : fair o → implements o s i = Some true → satisfies s i.
Proof.
  intros Ho H n f Hf. apply (entries_elem o 0 _ _ _ Ho) in Hf. unfold implements in H.
  induction (entries o 0 i) as [|[m h] l IH]; [by apply elem_of_nil in Hf|]. simpl in H.
  destruct (s !! m) as [g|] eqn:Hg; [|done]. destruct (func_equals h g) as [[]|] eqn:He; try done.
  apply elem_of_cons in Hf as [[= -> ->]|Hf]; [|by apply IH].
  apply func_equals_true in He as (E1 & E2 & E3). exists g. rewrite E1, E2, E3. done.
Qed.
Lemma implements_comparable o s i : fair o → comparable i →
  ∃ b, implements o s i = Some b ∧ (b = true ↔ satisfies s i).
Proof.
  intros Ho Hc. assert (∃ b, implements o s i = Some b ∧ (satisfies s i → b = true)) as (b & Hb & Hs).
  { unfold implements, satisfies.
    assert (∀ n f, (n, f) ∈ entries o 0 i → i !! n = Some f) as Hin by (intros; by eapply entries_elem).
    induction (entries o 0 i) as [|[m f] l IH]; simpl; [by exists true|].
    assert (i !! m = Some f) as Hm by (apply Hin; by left).
    destruct (s !! m) as [g|] eqn:Hg.
    2:{ exists false. split; [done|]. intros H. destruct (H _ _ Hm) as (g & ? & _). congruence. }
    destruct (func_equals_comparable f g) as (b & -> & Hb); [intros v Hv; by eapply Hc|].
    destruct b; [apply IH; intros; apply Hin; by right|]. exists false. split; [done|].
    intros H. destruct (H _ _ Hm) as (g' & ? & E1 & E2 & E3). assert (g' = g) as -> by congruence. by apply Hb. }
  exists b. split; [done|]. split; [|done]. intros ->. by eapply implements_true.
Qed.
Lemma valid_method_iff f : valid_method f = true ↔ service_method f.
Proof.
  unfold valid_method, service_method. split.
  - destruct (fn_args f) as [|[a t] args]; [done|]. destruct (last (fn_rets f)) as [[e r]|] eqn:Hl; [|done].
    intros [H1%bool_decide_eq_true H2%bool_decide_eq_true]%andb_true_iff. subst. split; [by exists a, args|].
    apply last_Some in Hl as [rets Hr]. by exists rets, e.
  - intros [(a & args & ->) (rets & e & ->)]. rewrite last_snoc. done.
Qed.
Lemma valid_iface_iff o i : fair o → valid_iface o i = true ↔ service_iface i.
Proof.
  intros Ho. unfold valid_iface, service_iface. rewrite forallb_forall. split.
  - intros H n f Hf. apply valid_method_iff. apply (H (n, f)). apply elem_of_list_In. by apply entries_elem.
  - intros H [n f] Hin%elem_of_list_In%entries_elem; [|done]. apply valid_method_iff. by eapply H.
Qed.

(** ** Searching *)
Lemma everything_elem {A} o site (part : package → gmap string A) ms x : fair o →
  x ∈ everything o site part ms ↔ in_set ms part x.
Proof.
  intros Ho. unfold everything, in_set. rewrite elem_of_list_bind. split.
  - intros ([m pkgs] & Hx & Hm%entries_elem); [|done]. apply elem_of_list_bind in Hx as ([k p] & Hx & Hk%entries_elem); [|done].
    apply elem_of_list_fmap in Hx as ([n y] & -> & Hn%entries_elem); [|done]. by exists m, pkgs, k, p.
  - intros (m & pkgs & k & p & Hm & Hk & Hp & Hx). exists (m, pkgs). split; [|by apply entries_elem].
    apply elem_of_list_bind. exists (k, p). split; [|by apply entries_elem]. apply elem_of_list_fmap.
    exists (fd_name x, fd_val x). split; [|by apply entries_elem]. rewrite Hp. by destruct x.
Qed.
Lemma collect_elem {A} (keep : found A → option bool) l r x :
  collect keep l = Some r → x ∈ r ↔ x ∈ l ∧ keep x = Some true.
Proof.
  revert r. induction l as [|y l IH]; intros r; simpl.
  - intros [= <-]. rewrite elem_of_nil. naive_solver.
  - destruct (keep y) as [b|] eqn:Hy; [|done]. destruct (collect keep l) as [r'|]; [|done]. intros [= <-].
    specialize (IH _ eq_refl). rewrite elem_of_cons. destruct b; rewrite ?elem_of_cons, IH; naive_solver.
Qed.
Lemma collect_total {A} (keep : found A → option bool) l :
  (∀ x, x ∈ l → is_Some (keep x)) → is_Some (collect keep l).
Proof.
  induction l as [|y l IH]; intros H; simpl; [eauto|]. destruct (H y) as [b ->]; [by left|].
  destruct IH as [r ->]; [intros; apply H; by right|]. eauto.
Qed.
Lemma valid_constructor_iff f t :
  valid_constructor f && match fn_rets f with (_, r) :: _ => bool_decide (r = t) | [] => false end = true ↔ constructor_of t f.
Proof.
  unfold valid_constructor, constructor_of. split.
  - destruct (fn_args f) as [|[a u] args]; [done|]. destruct (fn_rets f) as [|[r v] [|[e w] [|]]]; try done; [simpl|by intros [? ?]%andb_true_iff..].
    intros [[H1%bool_decide_eq_true H2%bool_decide_eq_true]%andb_true_iff H3%bool_decide_eq_true]%andb_true_iff. subst.
    split; [by exists a, args|by exists r, e].
  - intros [(a & args & ->) (r & e & ->)]. simpl. rewrite bool_decide_eq_true_2 by done. done.
Qed.
Lemma find_constructors_elem o ms t p x : fair o →
  (∀ f, p f = valid_constructor f && match fn_rets f with (_, r) :: _ => bool_decide (r = t) | [] => false end) →
  x ∈ find_constructors o ms p ↔ in_set ms pk_funcs x ∧ constructor_of t (fd_val x).
Proof.
  intros Ho Hp. unfold find_constructors. rewrite elem_of_list_filter, everything_elem, Hp, valid_constructor_iff by done. naive_solver.
Qed.

(** ** Lookups *)
Section lookup.
  Context (o : order) (Ho : fair o) (ms : modset).

  Lemma from_struct_sound s sv : service_from_struct o ms s = LService sv →
    sv_struct sv = s ∧ in_set ms pk_ifaces (sv_iface sv) ∧ service_iface (fd_val (sv_iface sv)) ∧
    satisfies (fd_val s) (fd_val (sv_iface sv)) ∧ in_set ms pk_funcs (sv_constructor sv) ∧
    constructor_of (TPtr (TUser (fd_pkg s) (fd_name s))) (fd_val (sv_constructor sv)).
  Proof using Ho.
    unfold service_from_struct. destruct (find_ifaces o ms (fd_val s)) as [ifaces|] eqn:Hi; [|done].
    destruct (filter (λ i, valid_iface o (fd_val i) = true) ifaces) as [|i is] eqn:Hf; [done|].
    destruct (find_constructors o ms (constructs_struct (fd_pkg s) (fd_name s))) as [|c cs] eqn:Hc; [done|].
    intros [= <-]. simpl. assert (i ∈ filter (λ i, valid_iface o (fd_val i) = true) ifaces) as Hin by (rewrite Hf; by left).
    apply elem_of_list_filter in Hin as [Hv Hin]. apply (collect_elem _ _ _ _ Hi) in Hin as [Hin Himp].
    assert (c ∈ find_constructors o ms (constructs_struct (fd_pkg s) (fd_name s))) as Hcin by (rewrite Hc; by left).
    eapply find_constructors_elem in Hcin as [? ?]; [|done|done].
    split_and!; [done|by apply everything_elem in Hin|by apply valid_iface_iff in Hv|by eapply implements_true|done|done].
  Qed.
  Lemma from_struct_complete s i c : all_comparable ms →
    in_set ms pk_ifaces i → service_iface (fd_val i) → satisfies (fd_val s) (fd_val i) →
    in_set ms pk_funcs c → constructor_of (TPtr (TUser (fd_pkg s) (fd_name s))) (fd_val c) →
    ∃ sv, service_from_struct o ms s = LService sv.
  Proof using Ho.
    intros Hcmp Hi Hv Hs Hc Hct. unfold service_from_struct.
    destruct (collect_total (λ i, implements o (fd_val s) (fd_val i)) (everything o 10 pk_ifaces ms)) as [ifaces Hif].
    { intros x Hx%everything_elem; [|done]. destruct (implements_comparable o (fd_val s) (fd_val x) Ho (Hcmp _ Hx)) as (b & -> & _). eauto. }
    unfold find_ifaces. rewrite Hif.
    assert (i ∈ filter (λ i, valid_iface o (fd_val i) = true) ifaces) as Hin.
    { apply elem_of_list_filter. split; [by apply valid_iface_iff|]. apply (collect_elem _ _ _ _ Hif). split; [by apply everything_elem|].
      destruct (implements_comparable o (fd_val s) (fd_val i) Ho (Hcmp _ Hi)) as (b & -> & Hb). f_equal. by apply Hb. }
    assert (c ∈ find_constructors o ms (constructs_struct (fd_pkg s) (fd_name s))) as Hcin.
    { eapply find_constructors_elem; [done|done|done]. }
    destruct (filter (λ i, valid_iface o (fd_val i) = true) ifaces) as [|i' is]; [by apply elem_of_nil in Hin|].
    destruct (find_constructors o ms (constructs_struct (fd_pkg s) (fd_name s))) as [|c' cs]; [by apply elem_of_nil in Hcin|].
    eauto.
  Qed.
  Lemma from_iface_sound i sv : service_from_iface o ms i = LService sv →
    sv_iface sv = i ∧ service_iface (fd_val i) ∧ in_set ms pk_structs (sv_struct sv) ∧
    satisfies (fd_val (sv_struct sv)) (fd_val i) ∧ in_set ms pk_funcs (sv_constructor sv) ∧
    constructor_of (TUser (fd_pkg i) (fd_name i)) (fd_val (sv_constructor sv)).
  Proof using Ho.
    unfold service_from_iface. destruct (valid_iface o (fd_val i)) eqn:Hv; [|done].
    destruct (find_constructors o ms (constructs_iface (fd_pkg i) (fd_name i))) as [|c cs] eqn:Hc; [done|].
    destruct (find_structs o ms (fd_val i)) as [[|s ss]|] eqn:Hs; [done| |done]. intros [= <-]. simpl.
    assert (s ∈ s :: ss) as Hin by (by left). apply (collect_elem _ _ _ _ Hs) in Hin as [Hin Himp].
    assert (c ∈ find_constructors o ms (constructs_iface (fd_pkg i) (fd_name i))) as Hcin by (rewrite Hc; by left).
    eapply find_constructors_elem in Hcin as [? ?]; [|done|done].
    split_and!; [done|by apply valid_iface_iff in Hv|by apply everything_elem in Hin|by eapply implements_true|done|done].
  Qed.
  Lemma from_iface_complete i s c : comparable (fd_val i) →
    service_iface (fd_val i) → in_set ms pk_structs s → satisfies (fd_val s) (fd_val i) →
    in_set ms pk_funcs c → constructor_of (TUser (fd_pkg i) (fd_name i)) (fd_val c) →
    ∃ sv, service_from_iface o ms i = LService sv.
  Proof using Ho.
    intros Hcmp Hv Hs Hsat Hc Hct. unfold service_from_iface. rewrite (proj2 (valid_iface_iff o _ Ho) Hv).
    assert (c ∈ find_constructors o ms (constructs_iface (fd_pkg i) (fd_name i))) as Hcin.
    { eapply find_constructors_elem; [done|done|done]. }
    destruct (find_constructors o ms (constructs_iface (fd_pkg i) (fd_name i))) as [|c' cs]; [by apply elem_of_nil in Hcin|].
    destruct (collect_total (λ s, implements o (fd_val s) (fd_val i)) (everything o 20 pk_structs ms)) as [ss Hss].
    { intros x _. destruct (implements_comparable o (fd_val x) (fd_val i) Ho Hcmp) as (b & -> & _). eauto. }
    unfold find_structs. rewrite Hss. assert (s ∈ ss) as Hin.
    { apply (collect_elem _ _ _ _ Hss). split; [by apply everything_elem|].
      destruct (implements_comparable o (fd_val s) (fd_val i) Ho Hcmp) as (b & -> & Hb). f_equal. by apply Hb. }
    destruct ss; [by apply elem_of_nil in Hin|]. eauto.
  Qed.
  Lemma from_struct_no_panic s : all_comparable ms → service_from_struct o ms s ≠ LPanic ∧ service_from_struct o ms s ≠ LNil.
  Proof using Ho.
    intros Hcmp. unfold service_from_struct.
    destruct (collect_total (λ i, implements o (fd_val s) (fd_val i)) (everything o 10 pk_ifaces ms)) as [ifaces Hif].
    { intros x Hx%everything_elem; [|done]. destruct (implements_comparable o (fd_val s) (fd_val x) Ho (Hcmp _ Hx)) as (b & -> & _). eauto. }
    unfold find_ifaces. rewrite Hif. by repeat case_match.
  Qed.
  Lemma from_iface_no_panic i : comparable (fd_val i) → service_from_iface o ms i ≠ LPanic ∧ service_from_iface o ms i ≠ LNil.
  Proof using Ho.
    intros Hcmp. unfold service_from_iface.
    destruct (collect_total (λ s, implements o (fd_val s) (fd_val i)) (everything o 20 pk_structs ms)) as [ss Hss].
    { intros x _. destruct (implements_comparable o (fd_val x) (fd_val i) Ho Hcmp) as (b & -> & _). eauto. }
    unfold find_structs. rewrite Hss. by repeat case_match.
  Qed.
End lookup.

Lemma arg_nodes_spec {N} defined (get : string → option N) ps : ∀ args r, length ps = length args →
  arg_nodes defined get ps args = Some r ↔
  length r = length args ∧ ∀ i p t a x, ps !! i = Some (p, t) → args !! i = Some a → r !! i = Some x →
    (if decide (t = TBasic "string" ∧ defined a = false) then x = AValue a else ∃ n, get a = Some n ∧ x = ANode n).
Proof.
  induction ps as [|[p t] ps IH]; intros [|a args] r Hlen; simpl in *; try done.
  - split; [intros [= <-]; split; [done|intros i ? ? ? ? H; by rewrite lookup_nil in H]|].
    intros [Hr _]. by destruct r.
  - assert (∀ x, (if bool_decide (t = TBasic "string") && negb (defined a) then Some (AValue a) else ANode <$> get a) = Some x ↔
      (if decide (t = TBasic "string" ∧ defined a = false) then x = AValue a else ∃ n, get a = Some n ∧ x = ANode n)) as Hx.
    { intros x. destruct (decide (t = TBasic "string" ∧ defined a = false)) as [[-> ->]|Hn]; simpl; [naive_solver|].
      assert (bool_decide (t = TBasic "string") && negb (defined a) = false) as ->.
      { case_bool_decide; [|done]. destruct (defined a); [done|]. naive_solver. }
      rewrite fmap_Some. naive_solver. }
    split.
    + destruct (if bool_decide (t = TBasic "string") && negb (defined a) then Some (AValue a) else ANode <$> get a) as [x|] eqn:E; [|done].
      destruct (arg_nodes defined get ps args) as [r'|] eqn:E'; [|done]. intros [= <-].
      apply IH in E' as [Hl Hr]; [|lia]. simpl. split; [lia|]. intros [|i] p' t' a' x'; simpl; [|apply Hr].
      intros [= <- <-] [= <-] [= <-]. by apply Hx.
    + intros [Hl Hr]. destruct r as [|x r]; [done|]. rewrite (proj2 (Hx x)); [|by apply (Hr 0 p t a x)].
      rewrite (proj2 (IH args r ltac:(lia))); [done|]. split; [simpl in *; lia|]. intros i. apply (Hr (S i)).
Qed.
