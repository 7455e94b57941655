(** * Remote calls: proofs about the marshalling code *)
From Verif Require Export Rpc_Spec.
From Coq Require Import ZifyBool ZifyNat ZifyN Lia.
Set Default Proof Using "Type".

Lemma gval_ind2 (P : gval → Prop) :
  (∀ b, P (VB b)) →
  (∀ fs, Forall (λ f : string * gval, P f.2) fs → P (VS fs)) →
  P (VP None) → (∀ v, P v → P (VP (Some v))) →
  P (VM None) → (∀ l, Forall (λ e : bval * gval, P e.2) l → P (VM (Some l))) →
  P (VL None) → (∀ l, Forall P l → P (VL (Some l))) →
  ∀ v, P v.
Proof.
  intros HB HS HP0 HP HM0 HM HL0 HL. fix IH 1. intros [b | fs | [v|] | [l|] | [l|]].
  - apply HB.
  - apply HS. induction fs as [|[n x] r IHr]; constructor; [apply IH | exact IHr].
  - apply HP, IH.
  - exact HP0.
  - apply HM. induction l as [|[n x] r IHr]; constructor; [apply IH | exact IHr].
  - exact HM0.
  - apply HL. induction l as [|x r IHr]; constructor; [apply IH | exact IHr].
  - exact HL0.
Qed.

(** ** Results *)
Lemma rmap_ext {A B} (f g : A → res B) l : (∀ x, x ∈ l → f x = g x) → rmap f l = rmap g l.
Proof.
  induction l as [|a l IH]; intros H; [done|]. simpl. rewrite (H a) by set_solver.
  rewrite IH; [done|]. intros x Hx. apply H. set_solver.
Qed.
Lemma rmap_Ok {A B} (f : A → res B) l bs : rmap f l = Ok bs ↔ Forall2 (λ a b, f a = Ok b) l bs.
Proof.
  split.
  - revert bs. induction l as [|a l IH]; intros bs H; simpl in H; [inversion H; constructor|].
    destruct (f a) eqn:E; simpl in H; try done. destruct (rmap f l) eqn:E'; simpl in H; try done.
    inversion H; subst. constructor; [done|]. by apply IH.
  - induction 1 as [|a b l bs H _ IH]; [done|]. simpl. by rewrite H, IH.
Qed.
Lemma rmap_no_stuck {A B} (f : A → res B) l : (∀ a, a ∈ l → f a ≠ Stuck) → rmap f l ≠ Stuck.
Proof.
  induction l as [|a l IH]; intros H; [done|]. simpl.
  assert (f a ≠ Stuck) as Ha by (apply H; set_solver). destruct (f a); simpl; try done.
  assert (rmap f l ≠ Stuck) as Hl by (apply IH; intros x Hx; apply H; set_solver). by destruct (rmap f l).
Qed.
Lemma rmap_not_ok {A B} (f : A → res B) l a : a ∈ l → (∀ b, f a ≠ Ok b) → ∀ bs, rmap f l ≠ Ok bs.
Proof.
  intros Ha H bs E. apply rmap_Ok in E. apply elem_of_list_lookup in Ha as [i Hi].
  destruct (Forall2_lookup_l _ _ _ _ _ E Hi) as (b & _ & Hb). by eapply H.
Qed.
Lemma rbind_Ok {A B} (r : res A) (f : A → res B) b : rbind r f = Ok b ↔ ∃ a, r = Ok a ∧ f a = Ok b.
Proof. destruct r; simpl; split; try done; naive_solver. Qed.

(** ** Fields *)
Lemma lookup_field_Some {A} n (fs : list (string * A)) x : NoDup fs.*1 → lookup_field n fs = Some x ↔ (n, x) ∈ fs.
Proof.
  induction fs as [|[n' y] r IH]; intros Hn; simpl; [by split; [|set_solver]|].
  apply NoDup_cons in Hn as [Hn Hr]. destruct (String.eqb_spec n n') as [->|Hne].
  - split.
    + intros [= ->]. left.
    + intros [H|H]%elem_of_cons; [by inversion H|]. exfalso. apply Hn. apply elem_of_list_fmap. by exists (n', x).
  - rewrite IH by done. rewrite elem_of_cons. naive_solver.
Qed.
Lemma lookup_field_in {A} n (fs : list (string * A)) x : lookup_field n fs = Some x → (n, x) ∈ fs.
Proof.
  induction fs as [|[n' y] r IH]; simpl; [done|]. destruct (String.eqb_spec n n') as [->|Hne].
  - intros [= ->]. left.
  - intros H. right. by apply IH.
Qed.
Lemma lookup_field_None {A} n (fs : list (string * A)) : lookup_field n fs = None ↔ n ∉ fs.*1.
Proof.
  induction fs as [|[n' y] r IH]; simpl; [set_solver|]. destruct (String.eqb_spec n n') as [->|Hne]; [split; [done|set_solver]|].
  rewrite IH. set_solver.
Qed.

Lemma parsed_in ds n t : (n, t) ∈ parsed_fields ds ↔ ∃ ns, Fdecl (n :: ns) t ∈ ds.
Proof.
  unfold parsed_fields. rewrite elem_of_list_omap. split.
  - intros ([ns t'] & Hd & H). simpl in H. destruct ns as [|n' ns]; simplify_eq. eauto.
  - intros [ns H]. by exists (Fdecl (n :: ns) t).
Qed.
Lemma parsed_go ds n t : (n, t) ∈ parsed_fields ds → (n, t) ∈ go_fields ds.
Proof.
  intros [ns H]%parsed_in. unfold go_fields. apply elem_of_list_bind. exists (Fdecl (n :: ns) t). split; [|done].
  simpl. left.
Qed.
Lemma parsed_nodup ds : NoDup (go_fields ds).*1 → NoDup (parsed_fields ds).*1.
Proof.
  induction ds as [|[ns t] ds IH]; intros H; [constructor|]. unfold go_fields in H. simpl in H.
  rewrite fmap_app in H. apply NoDup_app in H as (H1 & H2 & H3). specialize (IH H3).
  destruct ns as [|n ns]; [done|]. change (NoDup (n :: (parsed_fields ds).*1)). constructor; [|done].
  intros (f & -> & Hf)%elem_of_list_fmap. destruct f as [n t']. apply (H2 n); [left|].
  apply elem_of_list_fmap. exists (n, t'). split; [done|]. by apply parsed_go in Hf.
Qed.

(** ** Equations *)
Section eqs.
  Context (p : plugin) (cd : code) (round32 : N → N).
  #[local] Notation marshall := (marshall p cd round32).
  #[local] Notation unmarshall := (unmarshall cd round32).

  Definition m_struct (fs : list (string * gval)) (u : uty) : res gval :=
    rbind (rmap (λ f : string * ty, match lookup_field f.1 fs with Some v => rbind (marshall v f.2) (λ x, Ok (f.1, x)) | None => Stuck end) (fields_of cd u))
          (λ ms, Ok (VP (Some (VS ms)))).
  Lemma lookup_field_sub {B} (g : gval → B) n fs :
    lookup_field n ((fix go (fs : list (string * gval)) := match fs with [] => [] | (n, x) :: r => (n, g x) :: go r end) fs) = g <$> lookup_field n fs.
  Proof. induction fs as [|[n' x] r IH]; [done|]. simpl. by destruct (String.eqb n n'). Qed.

  Lemma marshall_struct fs u : marshall (VS fs) (TUser u) = m_struct fs u.
  Proof.
    unfold m_struct. cbn [Rpc_Model.marshall]. f_equal. apply rmap_ext. intros f _. rewrite (lookup_field_sub marshall).
    by destruct (lookup_field f.1 fs).
  Qed.
  Lemma marshall_ptr fs u : marshall (VP (Some (VS fs))) (TPtr (TUser u)) = m_struct fs u.
  Proof.
    unfold m_struct. cbn [Rpc_Model.marshall]. f_equal. apply rmap_ext. intros f _. rewrite (lookup_field_sub marshall).
    by destruct (lookup_field f.1 fs).
  Qed.
  Lemma marshall_map l k u :
    marshall (VM (Some l)) (TMap k (TUser u)) = rbind (rmap (λ e : bval * gval, rbind (marshall e.2 (TUser u)) (λ m, Ok (e.1, m))) l) (λ ms, Ok (VM (Some ms))).
  Proof.
    cbn [Rpc_Model.marshall]. f_equal. induction l as [|[b x] r IH]; [done|]. cbn [rmap fst snd]. rewrite IH.
    by destruct (marshall x (TUser u)).
  Qed.
  Lemma marshall_slice l u :
    marshall (VL (Some l)) (TSlice (TUser u)) = rbind (rmap (λ x, marshall x (TUser u)) l) (λ ms, Ok (VL (match ms with [] => None | _ => Some ms end))).
  Proof. cbn [Rpc_Model.marshall]. f_equal. induction l as [|x r IH]; [done|]. cbn [rmap]. by rewrite IH. Qed.

  Definition u_struct (fs : list (string * gval)) (u : uty) : res (option gval) :=
    rbind (rmap (λ f : string * ty, match lookup_field f.1 fs with Some v => rbind (unmarshall v f.2) (λ x, Ok (pair f.1 <$> x)) | None => Stuck end) (fields_of cd u))
          (λ xs, Ok (Some (VS (omap id xs)))).
  Lemma unmarshall_struct fs u : unmarshall (VP (Some (VS fs))) (TUser u) = u_struct fs u.
  Proof.
    unfold u_struct. cbn [Rpc_Model.unmarshall]. f_equal. apply rmap_ext. intros f _. rewrite (lookup_field_sub unmarshall).
    by destruct (lookup_field f.1 fs).
  Qed.
  Lemma unmarshall_map l k u :
    unmarshall (VM (Some l)) (TMap k (TUser u)) = rbind (rmap (λ e : bval * gval, unmarshall e.2 (TUser u)) l) (λ _, Ok (Some (VM (Some [])))).
  Proof.
    cbn [Rpc_Model.unmarshall].
    assert (∀ A (g : unit → res A) (h : list (option gval) → res A), (∀ x y, g x = h y) →
      rbind ((fix go (l : list (bval * gval)) : res unit := match l with [] => Ok () | (_, x) :: r => rbind (unmarshall x (TUser u)) (λ _, go r) end) l) g
      = rbind (rmap (λ e : bval * gval, unmarshall e.2 (TUser u)) l) h) as H; [|by apply H].
    intros A. induction l as [|[b x] r IH]; intros g h Hg; [by apply Hg|]. cbn [rmap snd].
    destruct (unmarshall x (TUser u)); simpl; [|done..]. rewrite (IH g (λ l, h (a :: l))) by (intros; apply Hg).
    by destruct (rmap _ r).
  Qed.
  Lemma unmarshall_slice l u :
    unmarshall (VL (Some l)) (TSlice (TUser u)) = rbind (rmap (λ x, rbind (unmarshall x (TUser u)) (λ w, Ok (default (VS []) w))) l) (λ ws, Ok (Some (VL (Some ws)))).
  Proof.
    cbn [Rpc_Model.unmarshall]. f_equal. induction l as [|x r IH]; [done|]. cbn [rmap]. rewrite IH.
    by destruct (unmarshall x (TUser u)).
  Qed.

  Context (utf8 : string → bool).
  #[local] Notation wire := (wire p utf8).
  Lemma wire_struct fs : wire (VS fs) = VS <$> mapM (λ f : string * gval, y ← wire f.2; Some (f.1, y)) fs.
  Proof.
    cbn [Rpc_Model.wire]. f_equal. induction fs as [|[n x] r IH]; [done|]. cbn [mapM fst snd]. rewrite IH. by destruct (wire x).
  Qed.
  Lemma wire_map l : wire (VM (Some l)) = (λ l, VM (norm p (Some l))) <$> mapM (λ e : bval * gval, k ← wire_basic p utf8 e.1; y ← wire e.2; Some (k, y)) l.
  Proof.
    cbn [Rpc_Model.wire]. rewrite <-option_fmap_compose.
    assert (∀ A B (f : A → B) (x y : option A), x = y → f <$> x = f <$> y) as Hf by (by intros ????? ->).
    apply (Hf _ _ (λ l, VM (norm p (Some l)))).
    induction l as [|[n x] r IH]; [done|]. cbn [mapM fst snd]. rewrite IH. destruct (wire_basic p utf8 n); simpl; [|done]. by destruct (wire x).
  Qed.
  Lemma wire_slice l : wire (VL (Some l)) = (λ l, VL (norm p (Some l))) <$> mapM wire l.
  Proof.
    cbn [Rpc_Model.wire]. rewrite <-option_fmap_compose.
    assert (∀ A B (f : A → B) (x y : option A), x = y → f <$> x = f <$> y) as Hf by (by intros ????? ->).
    apply (Hf _ _ (λ l, VL (norm p (Some l)))).
    induction l as [|x r IH]; [done|]. cbn [mapM]. by rewrite IH.
  Qed.
End eqs.

Lemma strings_struct fs : strings_in (VS fs) = fs ≫= λ f, strings_in f.2.
Proof. cbn [strings_in]. induction fs as [|[n x] r IH]; [done|]. exact (f_equal (app (strings_in x)) IH). Qed.
Definition str (b : bval) : list string := match b with VStr s => [s] | _ => [] end.
Lemma strings_map l : strings_in (VM (Some l)) = l ≫= λ e, str e.1 ++ strings_in e.2.
Proof. cbn [strings_in]. induction l as [|[k x] r IH]; [done|]. etrans; [|exact (f_equal (app (str k ++ strings_in x)) IH)]. by rewrite <-app_assoc. Qed.
Lemma strings_slice l : strings_in (VL (Some l)) = l ≫= strings_in.
Proof. cbn [strings_in]. induction l as [|x r IH]; [done|]. exact (f_equal (app (strings_in x)) IH). Qed.

Lemma Forall_bind_in {A B} (P : B → Prop) (f : A → list B) l x : Forall P (l ≫= f) → x ∈ l → Forall P (f x).
Proof. rewrite Forall_bind, Forall_forall. intros H. apply H. Qed.

Lemma sublist_nodup {A} (l k : list A) : sublist l k → NoDup k → NoDup l.
Proof.
  induction 1 as [|x l k H IH|x l k H IH]; intros Hn; [constructor| |]; apply NoDup_cons in Hn as [Hx Hn].
  - constructor; [|by apply IH]. intros Hin. apply Hx. apply elem_of_submseteq with l; [done|]. by apply sublist_submseteq.
  - by apply IH.
Qed.

(** ** The generators visit every type that is used *)
Fixpoint users (t : ty) : list uty :=
  match t with
  | TUser u => [u] | TPtr t | TSlice t => users t | TMap k v => users k ++ users v | _ => []
  end.
Section closed.
  Context (p : plugin) (cd : code).
  Definition covers (st st' : gset uty) : Prop :=
    st ⊆ st' ∧ ∀ u, u ∈ st' → u ∉ st → is_Some (cd !! u) ∧ ∀ f u', f ∈ fields_of cd u → u' ∈ users f.2 → u' ∈ st'.
  Lemma covers_refl st : covers st st. Proof. split; [done|]. intros u H H'. done. Qed.
  Lemma covers_trans a b c : covers a b → covers b c → covers a c.
  Proof.
    intros [H1 H2] [H3 H4]. split; [set_solver|]. intros u Hu Ha. destruct (decide (u ∈ b)) as [Hb|Hb]; [|by apply H4].
    destruct (H2 u Hb Ha) as [Hs Hf]. split; [done|]. intros f u' Hf' Hu'. apply H3. by eapply Hf.
  Qed.
  Lemma map_key_users k i : map_key k = Some i → users k = [].
  Proof. by destruct k as [[]| | | | |]. Qed.
  Lemma get_type_covers fuel st t st' i :
    get_type p cd fuel st t = Some (Some (st', i)) → covers st st' ∧ (∀ u, u ∈ users t → u ∈ st') ∧ idl_of p t = Some i.
  Proof.
    revert st t st' i. induction fuel as [|fuel IH]; intros st t st' i H; [done|].
    destruct t as [b|u|t|k v|t|]; cbn [get_type] in H.
    - destruct (basic_idl p b) eqn:E; simplify_eq/=. rewrite E. split_and!; [apply covers_refl | set_solver | done].
    - case_bool_decide as Hu; [simplify_eq/=; split_and!; [apply covers_refl | set_solver | done]|].
      destruct (cd !! u) as [ds|] eqn:Eu; [|done].
      match type of H with gbind (?L _ _) _ = _ => set (loop := L) in H end.
      assert (∀ fs a b, loop fs a = Some (Some b) → covers a b ∧ ∀ f u', f ∈ fs → u' ∈ users f.2 → u' ∈ b) as Hl.
      { induction fs as [|f fs IHf]; intros a b Hab; simpl in Hab.
        - inversion Hab; subst. split; [apply covers_refl | set_solver].
        - destruct (get_type p cd fuel a f.2) as [[[c j]|]|] eqn:E; simpl in Hab; try done.
          apply IH in E as (Ec & Eu' & _). destruct (IHf _ _ Hab) as [Hc Hf]. split; [by eapply covers_trans|].
          intros g u' [->|Hg]%elem_of_cons Hu'; [apply Hc; by apply Eu' | by eapply Hf]. }
      destruct (loop (parsed_fields ds) ({[u]} ∪ st)) as [[b|]|] eqn:E; simpl in H; try done. inversion H; subst. clear H.
      apply Hl in E as [[E1 E2] Ef]. split_and!; [|intros u' [->|?]%elem_of_cons; [set_solver|set_solver] | done].
      split; [set_solver|]. intros w Hw Hn. destruct (decide (w = u)) as [->|Hne].
      + split; [by rewrite Eu|]. unfold fields_of. rewrite Eu. apply Ef.
      + apply E2; set_solver.
    - by apply IH in H.
    - destruct p eqn:Ep.
      + destruct (map_key k) as [ki|] eqn:Ek; simpl in H; [|done].
        destruct (get_type Grpc cd fuel st v) as [[[st1 vi]|]|] eqn:E; simplify_eq/=. apply IH in E as (E1 & E2 & E3).
        split_and!; [done | |by rewrite Ek, E3]. simpl. rewrite (map_key_users _ _ Ek). done.
      + destruct (get_type Thrift cd fuel st k) as [[[st1 ki]|]|] eqn:Ek; simpl in H; try done.
        destruct (get_type Thrift cd fuel st1 v) as [[[st2 vi]|]|] eqn:E; simplify_eq/=.
        apply IH in E as (E1 & E2 & E3). apply IH in Ek as (K1 & K2 & K3).
        split_and!; [by eapply covers_trans | |by rewrite K3, E3]. intros u [Hu|Hu]%elem_of_app; [apply E1; by apply K2 | by apply E2].
    - assert (∀ x, gbind (get_type p cd fuel st t) (λ x, gret (x.1, IRep x.2)) = Some (Some x) → (st', i) = x →
        covers st st' ∧ (∀ u, u ∈ users t → u ∈ st') ∧ IRep <$> idl_of p t = Some i) as Hgen.
      { intros x Hx <-. destruct (get_type p cd fuel st t) as [[[st1 j]|]|] eqn:E; simplify_eq/=.
        apply IH in E as (E1 & E2 & E3). by rewrite E3. }
      destruct p eqn:Ep; [|by eapply Hgen]. destruct t as [[]| | | | |]; cbn [users idl_of]; try (by eapply Hgen); try done.
      simplify_eq/=. split_and!; [apply covers_refl | set_solver | done].
    - done.
  Qed.
  Lemma make_fields_covers fuel st ts st' is :
    make_fields p cd fuel st ts = Some (Some (st', is)) →
    covers st st' ∧ (∀ t u, t ∈ ts → u ∈ users t → u ∈ st').
  Proof.
    revert st st' is. induction ts as [|t ts IH]; intros st st' is H; simpl in H.
    - simplify_eq/=. split; [apply covers_refl | set_solver].
    - destruct (get_type p cd fuel st t) as [[[a j]|]|] eqn:E; simpl in H; try done.
      destruct (make_fields p cd fuel a ts) as [[[b js]|]|] eqn:E'; simplify_eq/=.
      apply get_type_covers in E as (E1 & E2 & _). apply IH in E' as [H1 H2]. split; [by eapply covers_trans|].
      intros t' u [->|Ht]%elem_of_cons Hu; [apply H1; by apply E2 | by eapply H2].
  Qed.
End closed.

(** ** Types that the generated code handles *)
Section types.
  Context (p : plugin) (cd : code).
  (** Every struct met on the way through the parsed fields exists and has fields for which code is generated. *)
  Definition visited_ok (st : gset uty) : Prop :=
    ∀ u, u ∈ st → is_Some (cd !! u) ∧ ∀ f, f ∈ fields_of cd u → field_ok p f.2 = true ∧ ∀ u', u' ∈ users f.2 → u' ∈ st.
  Lemma generates_visited names fuel ts :
    generates p cd names fuel ts = true →
    ∃ st, visited_ok st ∧ ∀ t, t ∈ ts → field_ok p t = true ∧ ∀ u, u ∈ users t → u ∈ st.
  Proof.
    unfold generates. intros H. destruct (make_fields p cd fuel ∅ ts) as [[[st is]|]|] eqn:E; try done.
    apply andb_prop in H as [[H1 H2]%andb_prop _]. apply make_fields_covers in E as [[_ E1] E2]. exists st. split.
    - intros u Hu. destruct (E1 u Hu) as [Hs Hf]; [set_solver|]. split; [done|]. intros f Hin. split; [|intros u'; by apply Hf].
      rewrite forallb_forall in H2. specialize (H2 u). feed specialize H2; [by apply elem_of_list_In, elem_of_elements|].
      rewrite forallb_forall in H2. apply (H2 f). by apply elem_of_list_In.
    - intros t Ht. split; [|intros u; by apply E2]. rewrite forallb_forall in H1. apply H1. by apply elem_of_list_In.
  Qed.
End types.

(** ** Basic values survive *)
Lemma wrap_s_id n z : (0 < n)%Z → signed n z → wrap_s n z = z.
Proof.
  unfold signed, wrap_s. intros Hn H. assert (2 ^ n = 2 * 2 ^ (n - 1))%Z as E.
  { rewrite <-Z.pow_succ_r by lia. f_equal. lia. }
  rewrite Z.mod_small by lia. lia.
Qed.
Lemma wrap_u_id n z : unsigned n z → wrap_u n z = z.
Proof. unfold unsigned, wrap_u. intros H. by apply Z.mod_small. Qed.
Lemma wrap_u_s z : unsigned 64 z → wrap_u 64 (wrap_s 64 z) = z.
Proof.
  unfold unsigned, wrap_u, wrap_s. intros H. change (2 ^ (64 - 1))%Z with (9223372036854775808)%Z. change (2 ^ 64)%Z with (18446744073709551616)%Z in *.
  rewrite Zminus_mod, Z.mod_mod by lia. rewrite <-Zminus_mod. replace (z + 9223372036854775808 - 9223372036854775808)%Z with z by lia. by apply Z.mod_small.
Qed.
Definition int_bits (p : plugin) : Z := match p with Grpc => 64 | Thrift => 32 end.
Lemma signed_le n m z : (0 < n ≤ m)%Z → signed n z → signed m z.
Proof. unfold signed. intros H. assert (2 ^ (n - 1) ≤ 2 ^ (m - 1))%Z by (apply Z.pow_le_mono_r; lia). lia. Qed.
Lemma unsigned_signed n m z : (0 ≤ n < m)%Z → unsigned n z → signed m z.
Proof. unfold signed, unsigned. intros H. assert (2 ^ n ≤ 2 ^ (m - 1))%Z by (apply Z.pow_le_mono_r; lia). lia. Qed.
Lemma unsigned_le n m z : (0 ≤ n ≤ m)%Z → unsigned n z → unsigned m z.
Proof. unfold unsigned. intros H. assert (2 ^ n ≤ 2 ^ m)%Z by (apply Z.pow_le_mono_r; lia). lia. Qed.
Lemma basic_roundtrip p round32 b v :
  basic_value (int_bits p) round32 b v → go_compiles p (TBasic b) = true →
  ∃ y, to_msg p round32 b v = Ok y ∧ convert round32 b y = Ok v ∧ str y = str v.
Proof.
  unfold to_msg.
  destruct p, b; simpl; intros Hv Hc; try done; destruct v; try done; simpl in *;
    (eexists; split; [done|]; split; [|done]; simpl; do 2 f_equal;
     try done;
     repeat first
       [ rewrite wrap_u_s by done; done
       | rewrite (wrap_s_id _ z) by (first [lia | assumption | eapply signed_le; [|eassumption]; lia | eapply unsigned_signed; [|eassumption]; lia])
       | rewrite (wrap_u_id _ z) by (first [assumption | eapply unsigned_le; [|eassumption]; lia]) ]; try done).
Qed.

Lemma field_ok_user p u : field_ok p (TUser u) = true. Proof. by destruct p. Qed.

(** ** Values survive *)
Section roundtrip.
  Context (p : plugin) (cd : code) (round32 : N → N) (utf8 : string → bool).
  #[local] Notation marshall := (marshall p cd round32).
  #[local] Notation unmarshall := (unmarshall cd round32).
  #[local] Notation wire := (wire p utf8).
  Definition utf8_ok (v : gval) : Prop := p = Grpc → Forall (λ s, utf8 s = true) (strings_in v).
  Definition no_ptr (t : ty) : Prop := ∀ t', ¬ uses cd t (TPtr t').

  Lemma wire_basic_ok b : (p = Grpc → Forall (λ s, utf8 s = true) (str b)) → wire_basic p utf8 b = Some b.
  Proof. unfold wire_basic. destruct p, b; simpl; intros H; try done. specialize (H eq_refl). inversion H; subst. by rewrite H2. Qed.
  Lemma wire_basics l : Forall (λ v, ∃ b, v = VB b) l → utf8_ok (VL (Some l)) → mapM wire l = Some l.
  Proof.
    unfold utf8_ok. rewrite strings_slice. induction 1 as [|v l [b ->] _ IH]; intros H; [done|]. simpl.
    assert (p = Grpc → Forall (λ s, utf8 s = true) (str b) ∧ Forall (λ s, utf8 s = true) (l ≫= strings_in)) as H'.
    { intros E. specialize (H E). apply Forall_app in H. done. }
    rewrite wire_basic_ok by (intros E; apply H'; done). simpl. rewrite IH by (intros E; apply H'; done). done.
  Qed.

  Context (Hgo : go_code cd) (st : gset uty) (Hst : visited_ok p cd st).
  Lemma field_lookup u ds fs n t :
    cd !! u = Some ds → Forall2 (λ (f : string * gval) (d : string * ty), f.1 = d.1 ∧ has_type (int_bits p) round32 cd f.2 d.2) fs (go_fields ds) →
    (n, t) ∈ parsed_fields ds →
    ∃ v, lookup_field n fs = Some v ∧ (n, v) ∈ fs ∧ has_type (int_bits p) round32 cd v t.
  Proof using Hgo.
    intros Hu HF Hin. apply parsed_go in Hin. apply elem_of_list_lookup in Hin as [i Hi].
    destruct (Forall2_lookup_r _ _ _ _ _ HF Hi) as ([n' v] & Hv & Hn & Ht). simpl in *. subst n'.
    exists v. assert ((n, v) ∈ fs) as Hfs by (by eapply elem_of_list_lookup_2). split_and!; [|done|done].
    apply lookup_field_Some; [|done]. assert (fs.*1 = (go_fields ds).*1) as ->; [|by eapply Hgo].
    clear -HF. induction HF as [|?? ?? [E _] _ IH]; [done|]. exact (f_equal2 cons E IH).
  Qed.

  Definition survives (v : gval) (t : ty) (w : option gval) : Prop :=
    ∃ m m', marshall v t = Ok m ∧ wire m = Some m' ∧ unmarshall m' t = Ok w.

  Lemma roundtrip v : ∀ t,
    has_type (int_bits p) round32 cd v t → utf8_ok v → field_ok p t = true → (∀ u, u ∈ users t → u ∈ st) → no_ptr t →
    ∃ w, survives v t w ∧ arrives cd t v w ∧ (∀ u, t = TUser u → is_Some w).
  Proof using Hgo Hst.
    induction v as [b|fs IH| |v IH| |l IH| |l IH] using gval_ind2; intros t Ht Hs Hok Hus Hnp; inversion Ht; subst.
    - (* basic *)
      unfold field_ok in Hok. apply andb_prop in Hok as [_ Hc]. destruct (basic_roundtrip p round32 b0 b) as (y & E1 & E2 & E3); [done..|].
      exists (Some (VB b)). split_and!; [|constructor|done]. exists (VB y), (VB y). split_and!.
      + simpl. by rewrite E1.
      + simpl. rewrite wire_basic_ok; [done|]. rewrite E3. exact Hs.
      + simpl. by rewrite E2.
    - (* struct *)
      destruct (Hst u) as [_ Hf]; [apply Hus; simpl; set_solver|].
      assert (fields_of cd u = parsed_fields ds) as Efs by (unfold fields_of; by rewrite H0). rewrite Efs in Hf.
      assert (NoDup (parsed_fields ds).*1) as Hnd by (by eapply parsed_nodup, Hgo).
      assert (∀ f, f ∈ parsed_fields ds → ∃ v m m' w, lookup_field f.1 fs = Some v ∧ marshall v f.2 = Ok m ∧ wire m = Some m' ∧ unmarshall m' f.2 = Ok w ∧ arrives cd f.2 v w) as Hall.
      { intros [n t] Hin. destruct (field_lookup _ _ _ _ _ H0 H1 Hin) as (v & Hv & Hvin & Hvt).
        rewrite Forall_forall in IH. destruct (IH (n, v) Hvin t) as (w & (m & m' & E1 & E2 & E3) & Ha & _); [done| | | | |].
        - intros E. specialize (Hs E). rewrite strings_struct in Hs. by apply (Forall_bind_in _ _ _ (n, v) Hs).
        - by apply (Hf (n, t)).
        - by apply (Hf (n, t)).
        - intros t' Hus'. eapply Hnp. eapply uses_field; [done| |exact Hus']. by apply parsed_go.
        - exists v, m, m', w. done. }
      assert (∃ vs : list (string * ty * gval * gval * gval * option gval), vs.*1.*1.*1.*1 = parsed_fields ds ∧
        Forall (λ x, let '(f, v, m, m', w) := x in lookup_field f.1 fs = Some v ∧ marshall v f.2 = Ok m ∧ wire m = Some m' ∧ unmarshall m' f.2 = Ok w ∧ arrives cd f.2 v w) vs) as (xs & Exs & Hxs).
      { clear -Hall. induction (parsed_fields ds) as [|f l IHl]; [by exists []|].
        destruct (Hall f) as (v & m & m' & w & H); [left|]. destruct IHl as (xs & E & Hx); [intros; apply Hall; by right|].
        exists ((f, v, m, m', w) :: xs). split; [exact (f_equal (cons f) E)|]. by constructor. }
      set (ms := (λ x : string * ty * gval * gval * gval * option gval, (x.1.1.1.1.1, x.1.1.2)) <$> xs).
      set (ms' := (λ x : string * ty * gval * gval * gval * option gval, (x.1.1.1.1.1, x.1.2)) <$> xs).
      set (ws := (λ x : string * ty * gval * gval * gval * option gval, pair x.1.1.1.1.1 <$> x.2) <$> xs).
      rewrite Forall_forall in Hxs.
      assert (ms'.*1 = (parsed_fields ds).*1) as En'.
      { unfold ms'. rewrite <-Exs, <-!list_fmap_compose. done. }
      exists (Some (VS (omap id ws))). split_and!; [|  |by eexists].
      + exists (VP (Some (VS ms))), (VP (Some (VS ms'))). split_and!.
        * rewrite marshall_struct. unfold m_struct. rewrite Efs.
          replace (rmap _ _) with (Ok ms); [done|]. symmetry. apply rmap_Ok. rewrite <-Exs. unfold ms.
          rewrite <-!list_fmap_compose. apply Forall2_fmap_l, Forall2_fmap_r, Forall_Forall2_diag, Forall_forall.
          intros [[[[f v] m] m'] w] Hx. destruct (Hxs _ Hx) as (E1 & E2 & _). simpl. rewrite E1, E2. done.
        * assert (wire (VS ms) = Some (VS ms')) as Ew.
          { rewrite wire_struct. replace (mapM _ ms) with (Some ms'); [done|]. symmetry. apply mapM_Some. unfold ms, ms'.
            apply Forall2_fmap_l, Forall2_fmap_r, Forall_Forall2_diag, Forall_forall.
            intros [[[[f v] m] m'] w] Hx. destruct (Hxs _ Hx) as (_ & _ & E & _). simpl. by rewrite E. }
          cbn [Rpc_Model.wire]. cbn [Rpc_Model.wire] in Ew. by rewrite Ew.
        * rewrite unmarshall_struct. unfold u_struct. rewrite Efs.
          replace (rmap _ _) with (Ok ws); [done|]. symmetry. apply rmap_Ok. rewrite <-Exs. unfold ws.
          rewrite <-!list_fmap_compose. apply Forall2_fmap_l, Forall2_fmap_r, Forall_Forall2_diag, Forall_forall.
          intros [[[[f v] m] m'] w] Hx. destruct (Hxs _ Hx) as (_ & _ & _ & E & _). cbn [fst snd compose].
          assert (lookup_field f.1 ms' = Some m') as ->.
          { apply lookup_field_Some; [by rewrite En'|]. unfold ms'. apply elem_of_list_fmap. by exists (f, v, m, m', w). }
          simpl. by rewrite E.
      + assert (NoDup (omap id ws).*1) as Hndw.
        { assert (sublist (omap id ws).*1 (parsed_fields ds).*1) as Hsub; [|by eapply sublist_nodup].
          rewrite <-Exs. unfold ws. clear. induction xs as [|[[[[f v] m] m'] w] xs IH]; [constructor|]. simpl.
          destruct w; simpl; by constructor. }
        econstructor; [done| |].
        * intros n ns t v Hd Hl. assert ((n, t) ∈ parsed_fields ds) as Hin by (apply parsed_in; eauto).
          rewrite <-Exs, <-!list_fmap_compose in Hin. apply elem_of_list_fmap in Hin as ([[[[f v1] m] m'] w] & Ef & Hin).
          simpl in Ef. subst f. destruct (Hxs _ Hin) as (E1 & _ & _ & _ & Ha). simpl in *.
          assert (v = v1) as -> by congruence. replace (lookup_field n (omap id ws)) with w; [done|].
          symmetry. destruct w as [w|].
          -- apply lookup_field_Some; [done|]. apply elem_of_list_omap. exists (Some (n, w)). split; [|done].
             unfold ws. apply elem_of_list_fmap. by exists (n, t, v1, m, m', Some w).
          -- apply lookup_field_None. intros (g & -> & Hg)%elem_of_list_fmap. apply elem_of_list_omap in Hg as (o & Ho & Eo).
             unfold ws in Ho. apply elem_of_list_fmap in Ho as (x & -> & Hx). unfold id in Eo.
             assert ((λ x : string * ty * gval * gval * gval * option gval, x.1.1.1.1.1) <$> xs = (parsed_fields ds).*1) as Ek
               by (rewrite <-Exs, <-!list_fmap_compose; done).
             rewrite <-Ek in Hnd. apply elem_of_list_lookup in Hx as [i Hi]. apply elem_of_list_lookup in Hin as [j Hj].
             assert (i = j) as ->.
             { eapply NoDup_lookup; [exact Hnd| |]; rewrite list_lookup_fmap; [rewrite Hi; simpl; reflexivity|].
               rewrite Hj. simpl. f_equal. destruct (x.2); simplify_eq/=. done. }
             rewrite Hi in Hj. simplify_eq/=.
        * intros n Hn. apply lookup_field_None. intros ([n' w] & -> & Hg)%elem_of_list_fmap. apply elem_of_list_omap in Hg as (o & Ho & Eo).
          unfold ws in Ho. apply elem_of_list_fmap in Ho as ([[[[[n'' t] v] m] m'] w'] & -> & Hx). simpl in Eo. destruct w' as [w'|]; simplify_eq/=.
          assert ((n', t) ∈ parsed_fields ds) as Hin.
          { rewrite <-Exs. rewrite <-!list_fmap_compose. apply elem_of_list_fmap. by exists (n', t, v, m, m', Some w). }
          apply parsed_in in Hin as [ns Hin]. by apply (Hn ns t).
    - exfalso. by eapply Hnp, uses_refl.
    - exfalso. by eapply Hnp, uses_refl.
    - (* nil map *)
      assert ((∃ b, v = TBasic b) ∨ ∃ u, v = TUser u) as [[b ->]|[u ->]].
      { unfold field_ok in Hok. apply andb_prop in Hok as [[_ Hh]%andb_prop _]. destruct v; try done; eauto. }
      + exists None. split_and!; [|constructor; eauto|done]. exists (VM None). eexists. split_and!; done.
      + exists (Some (VM (Some []))). split_and!; [|constructor; eauto|done]. exists (VM (Some [])). eexists. split_and!; [done..|].
        by destruct p.
    - (* map *)
      assert ((∃ b, v = TBasic b) ∨ ∃ u, v = TUser u) as [[b ->]|[u ->]].
      { unfold field_ok in Hok. apply andb_prop in Hok as [[_ Hh]%andb_prop _]. destruct v; try done; eauto. }
      + exists None. split_and!; [|constructor; eauto|done].
        assert (mapM (λ e : bval * gval, k ← wire_basic p utf8 e.1; y ← wire e.2; Some (k, y)) l = Some l) as Ew.
        { apply mapM_Some. apply Forall_Forall2_diag, Forall_forall. intros [b' v'] Hin. rewrite Forall_forall in H0.
          destruct (H0 _ Hin) as [Hk Hv]. simpl in *. inversion Hv; subst.
          assert (p = Grpc → Forall (λ s, utf8 s = true) (str b' ++ str v)) as Hs'.
          { intros E. specialize (Hs E). rewrite strings_map in Hs. exact (Forall_bind_in _ _ _ _ Hs Hin). }
          rewrite wire_basic_ok by (intros E; by apply Forall_app in Hs' as [? ?]).
          cbn [Rpc_Model.wire]. rewrite wire_basic_ok by (intros E; by apply Forall_app in Hs' as [? ?]). done. }
        exists (VM (Some l)). eexists. split_and!; [done| |].
        * rewrite wire_map, Ew. done.
        * by destruct p, l.
      + exists (Some (VM (Some []))). split_and!; [|constructor; eauto|done].
        assert (∀ e, e ∈ l → ∃ m m' w, marshall e.2 (TUser u) = Ok m ∧ wire_basic p utf8 e.1 = Some e.1 ∧ wire m = Some m' ∧ unmarshall m' (TUser u) = Ok w) as Hall.
        { intros [b' v'] Hin. rewrite Forall_forall in H0, IH. destruct (H0 _ Hin) as [Hk Hv].
          assert (p = Grpc → Forall (λ s, utf8 s = true) (str b' ++ strings_in v')) as Hs'.
          { intros E. specialize (Hs E). rewrite strings_map in Hs. exact (Forall_bind_in _ _ _ _ Hs Hin). }
          destruct (IH _ Hin (TUser u)) as (w & (m & m' & E1 & E2 & E3) & _); [done| |apply field_ok_user| | |].
          - intros E. by apply Forall_app in Hs' as [? ?].
          - intros u' Hu'. apply Hus. simpl in *. set_solver.
          - intros t' Ht'. eapply Hnp. by apply uses_value.
          - exists m, m', w. split_and!; try done. apply wire_basic_ok. intros E. by apply Forall_app in Hs' as [? ?]. }
        assert (∃ xs : list (bval * gval * gval * gval * option gval), xs.*1.*1.*1 = l ∧
          Forall (λ x, let '(e, m, m', w) := x in marshall e.2 (TUser u) = Ok m ∧ wire_basic p utf8 e.1 = Some e.1 ∧ wire m = Some m' ∧ unmarshall m' (TUser u) = Ok w) xs) as (xs & Exs & Hxs).
        { clear -Hall. induction l as [|f l IHl]; [by exists []|].
          destruct (Hall f) as (m & m' & w & H); [left|]. destruct IHl as (xs & E & Hx); [intros; apply Hall; by right|].
          exists ((f, m, m', w) :: xs). split; [exact (f_equal (cons f) E)|]. by constructor. }
        rewrite Forall_forall in Hxs.
        set (ms := (λ x : bval * gval * gval * gval * option gval, (x.1.1.1.1, x.1.1.2)) <$> xs).
        set (ms' := (λ x : bval * gval * gval * gval * option gval, (x.1.1.1.1, x.1.2)) <$> xs).
        exists (VM (Some ms)), (VM (norm p (Some ms'))). split_and!.
        * rewrite marshall_map. replace (rmap _ l) with (Ok ms); [done|]. symmetry. apply rmap_Ok. rewrite <-Exs. unfold ms.
          rewrite <-!list_fmap_compose. apply Forall2_fmap_l, Forall2_fmap_r, Forall_Forall2_diag, Forall_forall.
          intros [[[e m] m'] w] Hx. destruct (Hxs _ Hx) as (E1 & _). simpl. by rewrite E1.
        * rewrite wire_map. replace (mapM _ ms) with (Some ms'); [done|]. symmetry. apply mapM_Some. unfold ms, ms'.
          apply Forall2_fmap_l, Forall2_fmap_r, Forall_Forall2_diag, Forall_forall.
          intros [[[e m] m'] w] Hx. destruct (Hxs _ Hx) as (_ & E1 & E2 & _). simpl. by rewrite E1, E2.
        * assert (unmarshall (VM (Some ms')) (TMap k (TUser u)) = Ok (Some (VM (Some [])))) as Eu.
          { rewrite unmarshall_map. replace (rmap _ ms') with (Ok xs.*2); [done|]. symmetry. apply rmap_Ok. unfold ms'.
            apply Forall2_fmap_l, Forall2_fmap_r, Forall_Forall2_diag, Forall_forall.
            intros [[[e m] m'] w] Hx. by destruct (Hxs _ Hx) as (_ & _ & _ & E). }
          by destruct p, ms'.
    - (* nil slice *)
      assert ((∃ b, t0 = TBasic b) ∨ ∃ u, t0 = TUser u) as [[b ->]|[u ->]].
      { unfold field_ok in Hok. apply andb_prop in Hok as [[_ Hh]%andb_prop _]. destruct t0; try done; eauto. }
      + exists (Some (VL (norm p None))). split_and!; [|apply arr_slice; destruct p; constructor|done].
        exists (VL None). eexists. split_and!; done.
      + exists (Some (VL (Some []))). split_and!; [|apply arr_slice; destruct p; constructor|done].
        exists (VL None). eexists. split_and!; [done..|]. by destruct p.
    - (* slice *)
      assert ((∃ b, t0 = TBasic b) ∨ ∃ u, t0 = TUser u) as [[b ->]|[u ->]].
      { unfold field_ok in Hok. apply andb_prop in Hok as [[_ Hh]%andb_prop _]. destruct t0; try done; eauto. }
      + exists (Some (VL (norm p (Some l)))).
        assert (Forall (λ v, ∃ b, v = VB b) l) as Hb.
        { eapply Forall_impl; [exact H0|]. intros v Hv. inversion Hv; subst. eauto. }
        split_and!; [| |done].
        * exists (VL (Some l)), (VL (norm p (Some l))). split_and!; [done| |done].
          rewrite wire_slice, wire_basics by done. done.
        * constructor. replace (default [] (norm p (Some l))) with l by (by destruct p, l). simpl.
          apply Forall_Forall2_diag. eapply Forall_impl; [exact Hb|]. intros v [b' ->]. constructor.
      + assert (∀ v, v ∈ l → ∃ m m' w, marshall v (TUser u) = Ok m ∧ wire m = Some m' ∧ unmarshall m' (TUser u) = Ok (Some w) ∧ arrives cd (TUser u) v (Some w)) as Hall.
        { intros v Hin. rewrite Forall_forall in H0, IH.
          destruct (IH _ Hin (TUser u)) as (w & (m & m' & E1 & E2 & E3) & Ha & [w' ->]); [by apply H0| |apply field_ok_user| | |done|].
          - intros E. specialize (Hs E). rewrite strings_slice in Hs. by apply (Forall_bind_in _ _ _ _ Hs).
          - intros u' Hu'. apply Hus. simpl in *. set_solver.
          - intros t' Ht'. eapply Hnp. by apply uses_elem.
          - exists m, m', w'. done. }
        assert (∃ xs : list (gval * gval * gval * gval), xs.*1.*1.*1 = l ∧
          Forall (λ x, let '(v, m, m', w) := x in marshall v (TUser u) = Ok m ∧ wire m = Some m' ∧ unmarshall m' (TUser u) = Ok (Some w) ∧ arrives cd (TUser u) v (Some w)) xs) as (xs & Exs & Hxs).
        { clear -Hall. induction l as [|f l IHl]; [by exists []|].
          destruct (Hall f) as (m & m' & w & H); [left|]. destruct IHl as (xs & E & Hx); [intros; apply Hall; by right|].
          exists ((f, m, m', w) :: xs). split; [exact (f_equal (cons f) E)|]. by constructor. }
        rewrite Forall_forall in Hxs.
        set (ms := (λ x : gval * gval * gval * gval, x.1.1.2) <$> xs).
        set (ms' := (λ x : gval * gval * gval * gval, x.1.2) <$> xs).
        exists (Some (VL (Some xs.*2))). split_and!; [| |done].
        * exists (VL (match ms with [] => None | _ => Some ms end)), (VL (norm p (match ms' with [] => None | _ => Some ms' end))). split_and!.
          -- rewrite marshall_slice. replace (rmap _ l) with (Ok ms); [done|]. symmetry. apply rmap_Ok. rewrite <-Exs. unfold ms.
             rewrite <-!list_fmap_compose. apply Forall2_fmap_l, Forall2_fmap_r, Forall_Forall2_diag, Forall_forall.
             intros [[[e m] m'] w] Hx. by destruct (Hxs _ Hx) as (E1 & _).
          -- assert (mapM wire ms = Some ms') as Ew.
             { apply mapM_Some. unfold ms, ms'. apply Forall2_fmap_l, Forall2_fmap_r, Forall_Forall2_diag, Forall_forall.
               intros [[[e m] m'] w] Hx. by destruct (Hxs _ Hx) as (_ & E1 & _). }
             destruct xs as [|x xs]; [done|]. unfold ms at 1. simpl (_ <$> _). fold (ms).
             transitivity (wire (VL (Some ms))); [done|]. by rewrite wire_slice, Ew.
          -- assert (unmarshall (VL (Some ms')) (TSlice (TUser u)) = Ok (Some (VL (Some xs.*2)))) as Eu.
             { rewrite unmarshall_slice. replace (rmap _ ms') with (Ok xs.*2); [done|]. symmetry. apply rmap_Ok. unfold ms'.
               apply Forall2_fmap_l, Forall2_fmap_r, Forall_Forall2_diag, Forall_forall.
               intros [[[e m] m'] w] Hx. destruct (Hxs _ Hx) as (_ & _ & E & _). simpl. by rewrite E. }
             destruct xs as [|x xs]; [by destruct p|]. destruct p; exact Eu.
        * constructor. simpl. rewrite <-Exs, <-!list_fmap_compose. apply Forall2_fmap_l, Forall2_fmap_r, Forall_Forall2_diag, Forall_forall.
          intros [[[e m] m'] w] Hx. by destruct (Hxs _ Hx) as (_ & _ & _ & E).
  Qed.
End roundtrip.

(** ** What arrives of values without maps and of plain structs is the value *)
Section alike.
  Context (bits : Z) (round32 : N → N) (cd : code) (Hgo : go_code cd).
  Definition plain_type (t : ty) : Prop :=
    (∀ k v, ¬ uses cd t (TMap k v)) ∧ ∀ u ds d, uses cd t (TUser u) → cd !! u = Some ds → d ∈ ds → ∃ n, fd_names d = [n].
  Lemma plain_names ds : (∀ d, d ∈ ds → ∃ n, fd_names d = [n]) → go_fields ds = parsed_fields ds.
  Proof.
    induction ds as [|d ds IH]; intros H; [done|]. destruct (H d) as [n Hn]; [left|].
    assert (go_fields ds = parsed_fields ds) as E by (apply IH; intros; apply H; by right).
    destruct d as [ns t]. simpl in Hn. subst ns. exact (f_equal (cons (n, t)) E).
  Qed.
  Lemma plain_sub t t' : plain_type t → (∀ t'', uses cd t' t'' → uses cd t t'') → plain_type t'.
  Proof. intros [H1 H2] Hs. split; [intros k v Hu; by eapply H1, Hs | intros u ds d Hu; by apply H2, Hs]. Qed.
  Lemma arrives_alike v : ∀ t w,
    has_type bits round32 cd v t → plain_type t → arrives cd t v w → ∃ w', w = Some w' ∧ alike v w'.
  Proof using Hgo.
    induction v as [b|fs IH| |v IH| |l IH| |l IH] using gval_ind2; intros t w Ht Hp Ha; inversion Ha; subst.
    - eexists. split; [done|]. constructor.
    - inversion Ht; subst. assert (ds0 = ds) as -> by congruence. eexists. split; [done|].
      assert (go_fields ds = parsed_fields ds) as Eg.
      { apply plain_names. intros d Hd. destruct Hp as [_ Hp]. eapply Hp; [apply uses_refl|done|done]. }
      assert (fs.*1 = (go_fields ds).*1) as En.
      { match goal with HF : Forall2 _ fs _ |- _ => clear -HF; induction HF as [|?? ?? [E _] _ IH]; [done|]; exact (f_equal2 cons E IH) end. }
      assert (NoDup (go_fields ds).*1) as Hnd by (by eapply Hgo).
      constructor.
      + intros n v Hl. pose proof (lookup_field_in _ _ _ Hl) as Hin.
        apply elem_of_list_lookup in Hin as [i Hi].
        match goal with HF : Forall2 _ fs _ |- _ => destruct (Forall2_lookup_l _ _ _ _ _ HF Hi) as ([n' t] & Hd & E & Hvt) end.
        simpl in E, Hvt. subst n'. apply elem_of_list_lookup_2 in Hd.
        assert (∃ ns, Fdecl (n :: ns) t ∈ ds) as [ns Hns] by (apply parsed_in; by rewrite <-Eg).
        match goal with HA : ∀ n ns t v, _ → _ → arrives _ _ _ _ |- _ => specialize (HA n ns t v Hns Hl) as Harr end.
        rewrite Forall_forall in IH. specialize (IH (n, v)). simpl in IH.
        destruct (IH (elem_of_list_lookup_2 _ _ _ Hi) t (lookup_field n ws)) as (w' & Ew & Hal); [done| |done|by exists w'].
        eapply plain_sub; [exact Hp|]. intros t'' Hu. by eapply uses_field.
      + intros n Hn. match goal with HA : ∀ n, _ → lookup_field n ws = None |- _ => apply HA end.
        intros ns t Hd. apply lookup_field_None in Hn. apply Hn. rewrite En. apply elem_of_list_fmap. exists (n, t).
        split; [done|]. rewrite Eg. apply parsed_in. eauto.
    - exfalso. destruct Hp as [Hp _]. eapply Hp, uses_refl.
    - exfalso. destruct Hp as [Hp _]. eapply Hp, uses_refl.
    - eexists. split; [done|]. constructor. simpl in *.
      match goal with HF : Forall2 _ [] _ |- _ => inversion HF end. constructor.
    - eexists. split; [done|]. constructor. simpl in *. inversion Ht; subst.
      match goal with HF : Forall2 _ l _ |- _ => rename HF into HA end.
      match goal with HF : Forall (λ v, has_type _ _ _ v _) l |- _ => rename HF into HT end.
      assert (plain_type t0) as Hp' by (eapply plain_sub; [exact Hp|]; intros; by apply uses_elem).
      clear -IH HA HT Hp'. induction HA as [|v w l l' Hvw HA IHl]; [constructor|].
      apply Forall_cons in IH as [IHv IH]. apply Forall_cons in HT as [HTv HT]. constructor; [|by apply IHl].
      destruct (IHv t0 (Some w)) as (w' & E & Hal); [done..|]. by inversion E.
  Qed.
End alike.

(** ** Pointers *)
Section pointers.
  Context (p : plugin) (cd : code) (round32 : N → N) (utf8 : string → bool) (Hgo : go_code cd).
  #[local] Notation marshall := (marshall p cd round32).
  #[local] Notation unmarshall := (unmarshall cd round32).
  #[local] Notation wire := (wire p utf8).

  Lemma m_struct_Ok fs u m :
    m_struct p cd round32 fs u = Ok m ↔
    ∃ ms, m = VP (Some (VS ms)) ∧ Forall2 (λ f (x : string * gval), x.1 = f.1 ∧ ∃ v, lookup_field f.1 fs = Some v ∧ marshall v f.2 = Ok x.2) (fields_of cd u) ms.
  Proof.
    unfold m_struct. rewrite rbind_Ok. split.
    - intros (ms & Hms & [= <-]). exists ms. split; [done|]. apply rmap_Ok in Hms. eapply Forall2_impl; [exact Hms|].
      intros f [n x] H. destruct (lookup_field f.1 fs) as [v|]; [|done]. apply rbind_Ok in H as (y & Hy & [= <- <-]). eauto.
    - intros (ms & -> & Hms). exists ms. split; [|done]. apply rmap_Ok. eapply Forall2_impl; [exact Hms|].
      intros f [n x] (E & v & Hv & Hx). simpl in *. subst n. by rewrite Hv, Hx.
  Qed.
  Lemma wire_ptr_struct ms m' :
    wire (VP (Some (VS ms))) = Some m' →
    ∃ ms', m' = VP (Some (VS ms')) ∧ Forall2 (λ (x y : string * gval), y.1 = x.1 ∧ wire x.2 = Some y.2) ms ms'.
  Proof.
    intros H. assert (∃ x, wire (VS ms) = Some x ∧ m' = VP (Some x)) as (x & Hx & ->).
    { cbn [Rpc_Model.wire] in H |- *. apply fmap_Some in H as (y & Hy & ->). by exists y. }
    rewrite wire_struct in Hx. apply fmap_Some in Hx as (ms' & Hms & ->). exists ms'. split; [done|].
    apply mapM_Some in Hms. eapply Forall2_impl; [exact Hms|]. intros [n a] [n' b] E. simpl in *.
    apply bind_Some in E as (y & Hy & [= <- <-]). done.
  Qed.
  Lemma fields_nodup u : NoDup (fields_of cd u).*1.
  Proof using Hgo.
    unfold fields_of. destruct (cd !! u) as [ds|] eqn:E; [|constructor]. simpl. by eapply parsed_nodup, Hgo.
  Qed.
  (** The field of a message that a field of a struct became. *)
  Lemma field_sent fs u m m' f :
    m_struct p cd round32 fs u = Ok m → wire m = Some m' → f ∈ fields_of cd u →
    ∃ ms' v x y, m' = VP (Some (VS ms')) ∧ lookup_field f.1 fs = Some v ∧ marshall v f.2 = Ok x ∧ wire x = Some y ∧ lookup_field f.1 ms' = Some y.
  Proof using Hgo.
    intros (ms & -> & HF)%m_struct_Ok (ms' & -> & HF')%wire_ptr_struct Hin.
    apply elem_of_list_lookup in Hin as [i Hi]. destruct (Forall2_lookup_l _ _ _ _ _ HF Hi) as ([n x] & Hx & E & v & Hv & Hm).
    destruct (Forall2_lookup_l _ _ _ _ _ HF' Hx) as ([n' y] & Hy & E' & Hw). simpl in *. subst n' n.
    exists ms', v, x, y. split_and!; [done..|]. apply lookup_field_Some.
    - assert (ms'.*1 = (fields_of cd u).*1) as ->; [|apply fields_nodup].
      transitivity (ms.*1).
      + clear -HF'. induction HF' as [|?? ?? [E _] _ IH]; [done|]. exact (f_equal2 cons E IH).
      + clear -HF. induction HF as [|?? ?? [E _] _ IH]; [done|]. exact (f_equal2 cons E IH).
    - by eapply elem_of_list_lookup_2.
  Qed.

  Lemma pointer_crash t : holds_pointer cd t → ∀ v m m' w, marshall v t = Ok m → wire m = Some m' → unmarshall m' t ≠ Ok w.
  Proof using Hgo.
    induction 1 as [u ds n ns t Hu Hd|u ds n ns t Hu Hd _ IH]; intros v m m' w Hm Hw.
    - assert (∃ f l, fields_of cd u = f :: l) as (f & l & E).
      { assert ((n, t) ∈ fields_of cd u) as Hin by (unfold fields_of; rewrite Hu; apply parsed_in; eauto).
        destruct (fields_of cd u); [set_solver|eauto]. }
      destruct m'; simpl; rewrite E; done.
    - destruct v as [|fs| | |]; try done. rewrite marshall_struct in Hm.
      assert ((n, t) ∈ fields_of cd u) as Hin by (unfold fields_of; rewrite Hu; apply parsed_in; eauto).
      destruct (field_sent _ _ _ _ _ Hm Hw Hin) as (ms' & v & x & y & -> & Hv & Hx & Hy & Hl). cbn [fst snd] in *.
      rewrite unmarshall_struct. unfold u_struct. intros (xs & Hxs & _)%rbind_Ok. revert Hxs.
      eapply rmap_not_ok; [exact Hin|]. intros b. simpl. rewrite Hl. intros (z & Hz & _)%rbind_Ok. by eapply IH.
  Qed.
End pointers.

(** ** Sending never gets stuck *)
Section progress.
  Context (p : plugin) (cd : code) (round32 : N → N) (utf8 : string → bool) (Hgo : go_code cd).
  #[local] Notation marshall := (marshall p cd round32).
  #[local] Notation unmarshall := (unmarshall cd round32).
  #[local] Notation wire := (wire p utf8).
  Context (st : gset uty) (Hst : visited_ok p cd st).

  Definition goes (v : gval) (t : ty) : Prop :=
    marshall v t = Panic ∨ ∃ m m', marshall v t = Ok m ∧ wire m = Some m' ∧ unmarshall m' t ≠ Stuck.
  Lemma struct_goes fs u :
    (∀ f, f ∈ fields_of cd u → ∃ v, lookup_field f.1 fs = Some v ∧ goes v f.2) →
    m_struct p cd round32 fs u = Panic ∨ ∃ m m', m_struct p cd round32 fs u = Ok m ∧ wire m = Some m' ∧ unmarshall m' (TUser u) ≠ Stuck.
  Proof using Hgo.
    intros H. destruct (m_struct p cd round32 fs u) as [m| |] eqn:E; [|by left|].
    - right. pose proof E as E'. apply m_struct_Ok in E' as (ms & -> & HF).
      assert (∃ ms', Forall2 (λ x y : string * gval, y.1 = x.1 ∧ wire x.2 = Some y.2) ms ms') as [ms' HF'].
      { assert (Forall (λ x : string * gval, ∃ y, wire x.2 = Some y) ms) as Hw.
        { apply Forall_lookup. intros i x Hx. destruct (Forall2_lookup_r _ _ _ _ _ HF Hx) as (f & Hf & _ & v & Hv & Hm).
          apply elem_of_list_lookup_2 in Hf. destruct (H f Hf) as (v' & Hv' & [Hg|(a & b & Ha & Hb & _)]); simplify_eq; [congruence|].
          assert (x.2 = a) as -> by congruence. eauto. }
        clear -Hw. induction Hw as [|[n x] l [y Hy] _ [l' IH]]; [exists []; constructor|]. exists ((n, y) :: l'). by constructor. }
      assert (wire (VP (Some (VS ms))) = Some (VP (Some (VS ms')))) as Hw.
      { assert (wire (VS ms) = Some (VS ms')) as Hx.
        { rewrite wire_struct. replace (mapM _ ms) with (Some ms'); [done|]. symmetry. apply mapM_Some.
          eapply Forall2_impl; [exact HF'|]. intros [n x] [n' y] [? Hy]. simpl in *. subst. by rewrite Hy. }
        cbn [Rpc_Model.wire] in Hx |- *. by rewrite Hx. }
      exists (VP (Some (VS ms))), (VP (Some (VS ms'))). split_and!; [done..|].
      rewrite unmarshall_struct. unfold u_struct. intros Hs.
      assert (rmap (λ f : string * ty, match lookup_field f.1 ms' with Some v => rbind (unmarshall v f.2) (λ x, Ok (pair f.1 <$> x)) | None => Stuck end) (fields_of cd u) ≠ Stuck) as Hn.
      { apply rmap_no_stuck. intros f Hf. destruct (field_sent p cd round32 utf8 Hgo _ _ _ _ _ E Hw Hf) as (ms2 & v & x & y & E2 & Hv & Hx & Hy & Hl).
        inversion E2; subst ms2. rewrite Hl. destruct (H f Hf) as (v' & Hv' & [Hg|(a & b & Ha & Hb & Hu)]); simplify_eq; [congruence|].
        assert (x = a) as -> by congruence. assert (y = b) as -> by congruence. by destruct (unmarshall b f.2). }
      by destruct (rmap _ _).
    - exfalso. unfold m_struct in E.
      assert (rmap (λ f : string * ty, match lookup_field f.1 fs with Some v => rbind (marshall v f.2) (λ x, Ok (f.1, x)) | None => Stuck end) (fields_of cd u) ≠ Stuck) as Hn.
      { apply rmap_no_stuck. intros f Hf. destruct (H f Hf) as (v & -> & [->|(m & _ & -> & _)]); done. }
      by destruct (rmap _ _).
  Qed.
  Lemma rmap_sent {A} (f : A → res gval) (l : list A) :
    (∀ a, a ∈ l → f a = Panic ∨ ∃ m, f a = Ok m) → rmap f l = Panic ∨ ∃ ms, rmap f l = Ok ms.
  Proof.
    intros H. destruct (rmap f l) as [ms| |] eqn:E; [by right; exists ms|by left|].
    exfalso. revert E. apply rmap_no_stuck. intros a Ha. destruct (H a Ha) as [->|[m ->]]; done.
  Qed.

  Lemma progress v : ∀ t,
    has_type (int_bits p) round32 cd v t → utf8_ok p utf8 v → field_ok p t = true → (∀ u, u ∈ users t → u ∈ st) → goes v t.
  Proof using Hgo Hst.
    induction v as [b|fs IH| |v IH| |l IH| |l IH] using gval_ind2; intros t Ht Hs Hok Hus; inversion Ht; subst.
    - unfold field_ok in Hok. apply andb_prop in Hok as [_ Hc]. destruct (basic_roundtrip p round32 b0 b) as (y & E1 & E2 & E3); [done..|].
      right. exists (VB y), (VB y). split_and!.
      + simpl. by rewrite E1.
      + simpl. rewrite wire_basic_ok; [done|]. rewrite E3. exact Hs.
      + simpl. by rewrite E2.
    - unfold goes. rewrite marshall_struct. apply struct_goes. intros [n t] Hin.
      destruct (Hst u) as [_ Hf]; [apply Hus; simpl; set_solver|].
      match goal with HH : cd !! u = Some ds |- _ => rename HH into Hu end.
      match goal with HH : Forall2 _ fs _ |- _ => rename HH into HF end.
      assert ((n, t) ∈ parsed_fields ds) as Hin' by (unfold fields_of in Hin; by rewrite Hu in Hin).
      destruct (field_lookup p cd round32 Hgo _ _ _ _ _ Hu HF Hin') as (v & Hv & Hvin & Hvt). exists v. split; [done|].
      rewrite Forall_forall in IH. apply (IH (n, v) Hvin t); [done| | |].
      + intros E. specialize (Hs E). rewrite strings_struct in Hs. by apply (Forall_bind_in _ _ _ (n, v) Hs).
      + by apply (Hf (n, t)).
      + by apply (Hf (n, t)).
    - (* nil pointer *)
      assert (∃ u, t0 = TUser u) as [u ->].
      { unfold field_ok in Hok. apply andb_prop in Hok as [[_ Hh]%andb_prop Hc]. destruct t0; try done; eauto. }
      unfold goes. simpl. destruct (fields_of cd u) as [|f l] eqn:E; [|by left]. right.
      exists (VP (Some (VS []))), (VP (Some (VS []))). split_and!; [done..|]. simpl. by rewrite E.
    - (* pointer *)
      assert (∃ u, t0 = TUser u) as [u ->].
      { unfold field_ok in Hok. apply andb_prop in Hok as [[_ Hh]%andb_prop Hc]. destruct t0; try done; eauto. }
      destruct (IH (TUser u)) as [Hg|(m & m' & Hm & Hw & Hu)]; [done|exact Hs|apply field_ok_user|done| |].
      + left. match goal with HH : has_type _ _ _ v (TUser u) |- _ => inversion HH; subst end. rewrite marshall_ptr. by rewrite marshall_struct in Hg.
      + right. exists m, m'. match goal with HH : has_type _ _ _ v (TUser u) |- _ => inversion HH; subst end.
        rewrite marshall_ptr. rewrite marshall_struct in Hm. split_and!; [done..|].
        destruct m'; simpl; destruct (fields_of cd u); done.
    - (* nil map *)
      assert ((∃ b, v = TBasic b) ∨ ∃ u, v = TUser u) as [[b ->]|[u ->]].
      { unfold field_ok in Hok. apply andb_prop in Hok as [[_ Hh]%andb_prop _]. destruct v; try done; eauto. }
      + right. eexists. eexists. split_and!; [done..|]. done.
      + right. eexists. eexists. split_and!; [done..|]. by destruct p.
    - (* map *)
      match goal with HF : Forall (λ e, has_type _ _ _ (VB e.1) _ ∧ _) l |- _ => rename HF into HT end.
      assert ((∃ b, v = TBasic b) ∨ ∃ u, v = TUser u) as [[b ->]|[u ->]].
      { unfold field_ok in Hok. apply andb_prop in Hok as [[_ Hh]%andb_prop _]. destruct v; try done; eauto. }
      + right.
        assert (mapM (λ e : bval * gval, k ← wire_basic p utf8 e.1; y ← wire e.2; Some (k, y)) l = Some l) as Ew.
        { apply mapM_Some. apply Forall_Forall2_diag, Forall_forall. intros [b' v'] Hin. rewrite Forall_forall in HT.
          destruct (HT _ Hin) as [Hk Hv]. simpl in *. inversion Hv; subst.
          assert (p = Grpc → Forall (λ s, utf8 s = true) (str b' ++ str v)) as Hs'.
          { intros E. specialize (Hs E). rewrite strings_map in Hs. exact (Forall_bind_in _ _ _ _ Hs Hin). }
          rewrite wire_basic_ok by (intros E; by apply Forall_app in Hs' as [? ?]).
          cbn [Rpc_Model.wire]. rewrite wire_basic_ok by (intros E; by apply Forall_app in Hs' as [? ?]). done. }
        exists (VM (Some l)). eexists. split_and!; [done| |].
        * rewrite wire_map, Ew. done.
        * by destruct p, l.
      + assert (∀ e, e ∈ l → wire_basic p utf8 e.1 = Some e.1 ∧ goes e.2 (TUser u)) as Hall.
        { intros [b' v'] Hin. rewrite Forall_forall in HT, IH. destruct (HT _ Hin) as [Hk Hv].
          assert (p = Grpc → Forall (λ s, utf8 s = true) (str b' ++ strings_in v')) as Hs'.
          { intros E. specialize (Hs E). rewrite strings_map in Hs. exact (Forall_bind_in _ _ _ _ Hs Hin). }
          split; [apply wire_basic_ok; intros E; by apply Forall_app in Hs' as [? ?]|].
          apply (IH _ Hin (TUser u)); [done| |apply field_ok_user|].
          - intros E. by apply Forall_app in Hs' as [? ?].
          - intros u' Hu'. apply Hus. simpl in *. set_solver. }
        unfold goes. rewrite marshall_map.
        set (f := λ e : bval * gval, rbind (marshall e.2 (TUser u)) (λ m, Ok (e.1, m))).
        destruct (rmap f l) as [ms| |] eqn:E; [|by left|].
        * right. apply rmap_Ok in E. simpl.
          assert (∃ ms', Forall2 (λ x y : bval * gval, wire_basic p utf8 x.1 = Some y.1 ∧ wire x.2 = Some y.2 ∧ unmarshall y.2 (TUser u) ≠ Stuck) ms ms') as [ms' HF'].
          { clear -E Hall. induction E as [|e x l ms He _ IH]; [exists []; constructor|].
            destruct IH as [ms' IH]; [intros; apply Hall; by right|]. destruct (Hall e) as (Hk & Hg); [left|].
            unfold f in He. destruct Hg as [Hg|(m & m' & Hm & Hw & Hu)]; [by rewrite Hg in He|]. rewrite Hm in He. simpl in He. inversion He; subst.
            exists ((e.1, m') :: ms'). by constructor. }
          exists (VM (Some ms)), (VM (norm p (Some ms'))). split_and!; [done| |].
          -- rewrite wire_map. replace (mapM _ ms) with (Some ms'); [done|]. symmetry. apply mapM_Some.
             eapply Forall2_impl; [exact HF'|]. intros x [k' y] (H1 & H2 & _). simpl in *. by rewrite H1, H2.
          -- assert (unmarshall (VM (Some ms')) (TMap k (TUser u)) ≠ Stuck) as Hu.
             { rewrite unmarshall_map. assert (rmap (λ e : bval * gval, unmarshall e.2 (TUser u)) ms' ≠ Stuck) as Hn; [|by destruct (rmap _ ms')].
               apply rmap_no_stuck. intros y Hy. apply elem_of_list_lookup in Hy as [i Hi].
               destruct (Forall2_lookup_r _ _ _ _ _ HF' Hi) as (x & _ & _ & _ & Hn). done. }
             destruct p, ms'; exact Hu || done.
        * exfalso. revert E. apply rmap_no_stuck. intros e He. destruct (Hall e He) as (_ & [Hg|(m & m' & Hm & _)]); unfold f; by rewrite ?Hg, ?Hm.
    - (* nil slice *)
      assert ((∃ b, t0 = TBasic b) ∨ ∃ u, t0 = TUser u) as [[b ->]|[u ->]].
      { unfold field_ok in Hok. apply andb_prop in Hok as [[_ Hh]%andb_prop _]. destruct t0; try done; eauto. }
      + right. eexists. eexists. split_and!; [done..|]. by destruct p.
      + right. eexists. eexists. split_and!; [done..|]. by destruct p.
    - (* slice *)
      match goal with HF : Forall (λ v, has_type _ _ _ v _) l |- _ => rename HF into HT end.
      assert ((∃ b, t0 = TBasic b) ∨ ∃ u, t0 = TUser u) as [[b ->]|[u ->]].
      { unfold field_ok in Hok. apply andb_prop in Hok as [[_ Hh]%andb_prop _]. destruct t0; try done; eauto. }
      + right. assert (Forall (λ v, ∃ b, v = VB b) l) as Hb.
        { eapply Forall_impl; [exact HT|]. intros v Hv. inversion Hv; subst. eauto. }
        exists (VL (Some l)), (VL (norm p (Some l))). split_and!; [done| |done].
        rewrite wire_slice, wire_basics by done. done.
      + assert (∀ v, v ∈ l → goes v (TUser u)) as Hall.
        { intros v Hin. rewrite Forall_forall in HT, IH. apply (IH _ Hin (TUser u)); [by apply HT| |apply field_ok_user|].
          - intros E. specialize (Hs E). rewrite strings_slice in Hs. by apply (Forall_bind_in _ _ _ _ Hs).
          - intros u' Hu'. apply Hus. simpl in *. set_solver. }
        unfold goes. rewrite marshall_slice.
        set (f := λ x, marshall x (TUser u)).
        destruct (rmap f l) as [ms| |] eqn:E; [|by left|].
        * right. apply rmap_Ok in E. simpl.
          assert (∃ ms', Forall2 (λ x y : gval, wire x = Some y ∧ unmarshall y (TUser u) ≠ Stuck) ms ms') as [ms' HF'].
          { clear -E Hall. induction E as [|e x l ms He _ IH]; [exists []; constructor|].
            destruct IH as [ms' IH]; [intros; apply Hall; by right|]. destruct (Hall e) as [Hg|(m & m' & Hm & Hw & Hu)]; [left| |].
            - unfold f in He. congruence.
            - unfold f in He. assert (x = m) as -> by congruence. exists (m' :: ms'). by constructor. }
          exists (VL (match ms with [] => None | _ => Some ms end)), (VL (norm p (match ms' with [] => None | _ => Some ms' end))). split_and!; [done| |].
          -- assert (mapM wire ms = Some ms') as Ew.
             { apply mapM_Some. eapply Forall2_impl; [exact HF'|]. by intros x y [? _]. }
             inversion HF'; subst; [done|]. rewrite wire_slice, Ew. done.
          -- assert (unmarshall (VL (Some ms')) (TSlice (TUser u)) ≠ Stuck) as Hu.
             { rewrite unmarshall_slice. set (g := λ x, rbind (unmarshall x (TUser u)) (λ w, Ok (default (VS []) w))).
               assert (rmap g ms' ≠ Stuck) as Hn; [|by destruct (rmap g ms')].
               apply rmap_no_stuck. intros y Hy. apply elem_of_list_lookup in Hy as [i Hi].
               destruct (Forall2_lookup_r _ _ _ _ _ HF' Hi) as (x & _ & _ & Hn). unfold g. by destruct (unmarshall y (TUser u)). }
             destruct ms'; [by destruct p|]. destruct p; exact Hu.
        * exfalso. revert E. apply rmap_no_stuck. intros e He. destruct (Hall e He) as [Hg|(m & m' & Hm & _)]; unfold f; by rewrite ?Hg, ?Hm.
  Qed.
End progress.

(** ** All arguments together *)
Section transmit.
  Context (p : plugin) (cd : code) (round32 : N → N) (utf8 : string → bool) (Hgo : go_code cd).
  #[local] Notation marshall := (marshall p cd round32).
  #[local] Notation unmarshall := (unmarshall cd round32).
  #[local] Notation wire := (wire p utf8).

  Lemma transmit_delivered ts vs ws :
    length vs = length ts → Forall2 (λ (vt : gval * ty) w, survives p cd round32 utf8 vt.1 vt.2 w) (zip vs ts) ws →
    transmit p cd round32 utf8 ts vs = Delivered ws.
  Proof.
    intros Hlen HF. unfold transmit.
    assert (∃ ms ms', rmap (λ vt : gval * ty, marshall vt.1 vt.2) (zip vs ts) = Ok ms ∧ mapM wire ms = Some ms' ∧
      rmap (λ mt : gval * ty, unmarshall mt.1 mt.2) (zip ms' ts) = Ok ws) as (ms & ms' & -> & -> & ->); [|done].
    revert ts ws Hlen HF. induction vs as [|v vs IH]; intros [|t ts] ws Hlen HF; try done.
    - inversion HF; subst. by exists [], [].
    - simpl in HF. apply Forall2_cons_inv_l in HF as (w & ws' & (m & m' & E1 & E2 & E3) & HF & ->). cbn [fst snd] in *.
      destruct (IH ts ws') as (ms & ms' & H1 & H2 & H3); [by inversion Hlen|done|].
      exists (m :: ms), (m' :: ms'). cbn [zip zip_with rmap fst snd mapM]. rewrite E1. cbn [rbind].
      change (zip_with pair vs ts) with (zip vs ts). rewrite H1. split_and!; [done| |].
      + by rewrite E2; simpl; rewrite H2.
      + rewrite E3. cbn [rbind]. change (zip_with pair ms' ts) with (zip ms' ts). by rewrite H3.
  Qed.

  Lemma transmit_arrives names fuel ts vs :
    generates p cd names fuel ts = true → no_pointers cd ts →
    Forall2 (has_type (int_bits p) round32 cd) vs ts → Forall (utf8_ok p utf8) vs →
    ∃ ws, transmit p cd round32 utf8 ts vs = Delivered ws ∧ Forall2 (λ (vt : gval * ty) w, arrives cd vt.2 vt.1 w) (zip vs ts) ws.
  Proof using Hgo.
    intros (st & Hst & Hts)%generates_visited Hnp HF Hs.
    assert (∃ ws, Forall2 (λ (vt : gval * ty) w, survives p cd round32 utf8 vt.1 vt.2 w ∧ arrives cd vt.2 vt.1 w) (zip vs ts) ws) as (ws & Hws).
    { induction HF as [|v t vs ts Hv HF IH]; [exists []; constructor|].
      apply Forall_cons in Hs as [Hsv Hs]. destruct IH as [ws IH]; [intros; apply Hts; by right|intros ???; eapply Hnp; by right|done|].
      destruct (roundtrip p cd round32 utf8 Hgo st Hst v t Hv Hsv) as (w & H1 & H2 & _).
      - apply Hts. left.
      - apply Hts. left.
      - intros t' Hu. eapply Hnp; [left|done].
      - exists (w :: ws). constructor; [done|exact IH]. }
    exists ws. split.
    - apply transmit_delivered; [by eapply Forall2_length|]. eapply Forall2_impl; [exact Hws|]. by intros ?? [? _].
    - eapply Forall2_impl; [exact Hws|]. by intros ?? [_ ?].
  Qed.

  Lemma transmit_pointers names fuel ts vs :
    generates p cd names fuel ts = true →
    Forall2 (has_type (int_bits p) round32 cd) vs ts → Forall (utf8_ok p utf8) vs →
    (∃ ws, transmit p cd round32 utf8 ts vs = Delivered ws ∧ ∀ t, t ∈ ts → ¬ holds_pointer cd t) ∨
    transmit p cd round32 utf8 ts vs = SenderPanics ∨ transmit p cd round32 utf8 ts vs = ReceiverPanics.
  Proof using Hgo.
    intros (st & Hst & Hts)%generates_visited HF Hs.
    assert (Forall2 (goes p cd round32 utf8) vs ts) as HG.
    { clear -HF Hs Hts Hst Hgo. induction HF as [|v t vs ts Hv HF IH]; [constructor|]. apply Forall_cons in Hs as [Hsv Hs].
      constructor; [|apply IH; [intros; apply Hts; by right|done]]. eapply (progress p cd round32 utf8 Hgo st Hst); [done..| |]; apply Hts; left. }
    unfold transmit.
    assert (rmap (λ vt : gval * ty, marshall vt.1 vt.2) (zip vs ts) ≠ Stuck) as Hm.
    { apply rmap_no_stuck. intros [v t] Hin. apply elem_of_list_lookup in Hin as [i Hi]. apply lookup_zip_with_Some in Hi as (v' & t' & [= <- <-] & Hv & Ht).
      destruct (Forall2_lookup_lr _ _ _ _ _ _ HG Hv Ht) as [Hg|(m & m' & Hg & _)]; simpl; by rewrite Hg. }
    destruct (rmap (λ vt : gval * ty, marshall vt.1 vt.2) (zip vs ts)) as [ms| |] eqn:E; [|by right; left|done].
    apply rmap_Ok in E.
    assert (∃ ms', Forall2 (λ m m', wire m = Some m') ms ms' ∧ Forall2 (λ m' t, unmarshall m' t ≠ Stuck) ms' ts ∧
       ∀ i t m', ts !! i = Some t → ms' !! i = Some m' → ∃ v m, marshall v t = Ok m ∧ wire m = Some m') as (ms' & Hw & Hu & Hall).
    { clear -HG E. revert ms E. induction HG as [|v t vs ts Hg HG IH]; intros ms E.
      - inversion E; subst. exists []. split_and!; [constructor..|done].
      - simpl in E. apply Forall2_cons_inv_l in E as (m & ms1 & E1 & E & ->). cbn [fst snd] in E1.
        destruct (IH ms1 E) as (ms' & H1 & H2 & H3). destruct Hg as [Hg|(m0 & m' & Hg & Hw & Hu)]; [congruence|].
        assert (m0 = m) as -> by congruence. exists (m' :: ms'). split_and!; [by constructor..|].
        intros [|i] t' x Ht Hx; simpl in *; simplify_eq; [eauto | by eapply H3]. }
    replace (mapM wire ms) with (Some ms') by (symmetry; by apply mapM_Some).
    assert (rmap (λ mt : gval * ty, unmarshall mt.1 mt.2) (zip ms' ts) ≠ Stuck) as Hn.
    { apply rmap_no_stuck. intros [m t] Hin. apply elem_of_list_lookup in Hin as [i Hi]. apply lookup_zip_with_Some in Hi as (v' & t' & [= <- <-] & Hv & Ht).
      by apply (Forall2_lookup_lr _ _ _ _ _ _ Hu Hv Ht). }
    destruct (rmap (λ mt : gval * ty, unmarshall mt.1 mt.2) (zip ms' ts)) as [ws| |] eqn:E2; [|by right; right|done].
    left. exists ws. split; [done|]. intros t Ht Hp. apply elem_of_list_lookup in Ht as [i Hi].
    destruct (Forall2_lookup_r _ _ _ _ _ Hu Hi) as (m' & Hm' & _). destruct (Hall i t m' Hi Hm') as (v & m & H1 & H2).
    revert E2. apply (rmap_not_ok _ _ (m', t)).
    - apply elem_of_list_lookup. exists i. apply lookup_zip_with_Some. eauto.
    - intros b. exact (pointer_crash p cd round32 utf8 Hgo t Hp v m m' b H1 H2).
  Qed.
End transmit.

(** ** Code generation terminates *)
Section terminates.
  Context (p : plugin) (cd : code).
  Lemma get_type_mono fuel fuel' st t r : get_type p cd fuel st t = Some r → fuel ≤ fuel' → get_type p cd fuel' st t = Some r.
  Proof.
    revert fuel' st t r. induction fuel as [|fuel IH]; intros fuel' st t r H Hle; [done|].
    destruct fuel' as [|fuel']; [lia|]. apply le_S_n in Hle.
    assert (∀ A B (x y : gen A) (f g : A → gen B) z, (∀ r, x = Some r → y = Some r) → (∀ a r, f a = Some r → g a = Some r) → gbind x f = Some z → gbind y g = Some z) as Hb.
    { intros A B [[a|]|] y f g z Hx Hf Hz; simpl in Hz; try done; rewrite (Hx _ eq_refl); simpl; [by apply Hf|done]. }
    assert (∀ st t r, get_type p cd fuel st t = Some r → get_type p cd fuel' st t = Some r) as IH' by (intros; by eapply IH).
    destruct t as [b|u|t|k v|t|]; cbn [get_type] in H |- *; [done| |by apply IH'| | |done].
    - case_bool_decide; [done|]. destruct (cd !! u) as [ds|]; [|done].
      eapply Hb; [| |exact H]; [|done]. clear H. generalize ({[u]} ∪ st). induction (parsed_fields ds) as [|f fs IHf]; intros s r' Hr; [done|].
      eapply Hb; [| |exact Hr]; [intros; by apply IH'|]. intros a r0. apply IHf.
    - destruct p.
      + eapply Hb; [| |exact H]; [done|]. intros a r0 Hr. eapply Hb; [| |exact Hr]; [intros; by apply IH'|done].
      + eapply Hb; [| |exact H]; [intros; by apply IH'|]. intros a r0 Hr. eapply Hb; [| |exact Hr]; [intros; by apply IH'|done].
    - assert (∀ z, gbind (get_type p cd fuel st t) (λ x, gret (x.1, IRep x.2)) = Some z →
        gbind (get_type p cd fuel' st t) (λ x, gret (x.1, IRep x.2)) = Some z) as Hs.
      { intros z. apply Hb; [intros; by apply IH'|done]. }
      destruct p; [|by apply Hs]. destruct t as [[]| | | | |]; try (by apply Hs); done.
  Qed.
  Lemma get_type_grows fuel st t st' i : get_type p cd fuel st t = Some (Some (st', i)) → st ⊆ st'.
  Proof. intros H. apply get_type_covers in H as [[H _] _]. done. Qed.
  (** The structs no message was made for. *)
  Definition unseen (st : gset uty) : nat := size (dom cd ∖ st).
  Lemma unseen_mono st st' : st ⊆ st' → unseen st' ≤ unseen st.
  Proof. intros H. unfold unseen. apply subseteq_size. set_solver. Qed.

  Lemma get_type_terminates n : ∀ t st, unseen st ≤ n → ∃ fuel r, get_type p cd fuel st t = Some r.
  Proof.
    induction n as [n IHn] using lt_wf_ind.
    induction t as [b|u|t IH|k IHk v IHv|t IH|]; intros st Hst.
    - by exists 1, (glift (basic_idl p b) ≫= λ o, (λ w, (st, IBasic w)) <$> o); simpl; destruct (basic_idl p b).
    - destruct (decide (u ∈ st)) as [Hu|Hu]; [exists 1; eexists; cbn [get_type]; by rewrite bool_decide_eq_true_2 by done|].
      destruct (cd !! u) as [ds|] eqn:Ed; [|exists 1; eexists; cbn [get_type]; by rewrite bool_decide_eq_false_2, Ed by done].
      assert (∀ fs s, unseen s < n → ∃ fuel r, ∀ fuel', fuel ≤ fuel' →
        (fix loop (fs : list (string * ty)) (st : gset uty) : gen (gset uty) :=
            match fs with [] => gret st | f :: r => gbind (get_type p cd fuel' st f.2) (λ x, loop r x.1) end) fs s = Some r) as Hl.
      { induction fs as [|f fs IHf]; intros s Hs; [exists 0; eexists; intros; done|].
        destruct (IHn (unseen s) Hs f.2 s) as (f1 & r1 & E1); [lia|]. destruct r1 as [[s' i]|].
        - destruct (IHf s') as (f2 & r2 & E2); [pose proof (unseen_mono _ _ (get_type_grows _ _ _ _ _ E1)); lia|].
          exists (f1 `max` f2), r2. intros fuel' Hf. rewrite (get_type_mono f1 fuel' _ _ _ E1) by lia. simpl. apply E2. lia.
        - exists f1, None. intros fuel' Hf. by rewrite (get_type_mono f1 fuel' _ _ _ E1) by lia. }
      destruct (Hl (parsed_fields ds) ({[u]} ∪ st)) as (fuel & r & E).
      { assert (unseen ({[u]} ∪ st) < unseen st); [|lia]. unfold unseen. apply subset_size. apply elem_of_dom_2 in Ed. split; [set_solver|]. intros Hsub. specialize (Hsub u). set_solver. }
      exists (S fuel). cbn [get_type]. rewrite bool_decide_eq_false_2, Ed by done. rewrite E by done. destruct r; eexists; reflexivity.
    - destruct (IH st Hst) as (fuel & r & E). exists (S fuel), r. exact E.
    - destruct p eqn:Ep.
      + destruct (IHv st Hst) as (fuel & r & E). exists (S fuel). cbn [get_type].
        destruct (map_key k); simpl; [|by eexists]. rewrite E. by destruct r; eexists.
      + destruct (IHk st Hst) as (f1 & r1 & E1). destruct r1 as [[s i]|].
        * destruct (IHv s) as (f2 & r2 & E2); [rewrite <-Ep in E1; pose proof (unseen_mono _ _ (get_type_grows _ _ _ _ _ E1)); lia|].
          exists (S (f1 `max` f2)). cbn [get_type]. rewrite <-Ep in *.
          rewrite (get_type_mono f1 (f1 `max` f2) _ _ _ E1) by lia. simpl.
          rewrite (get_type_mono f2 (f1 `max` f2) _ _ _ E2) by lia. by destruct r2; eexists.
        * exists (S f1). cbn [get_type]. rewrite E1. by eexists.
    - destruct (IH st Hst) as (fuel & r & E). exists (S fuel).
      assert (∃ r', gbind (get_type p cd fuel st t) (λ x, gret (x.1, IRep x.2)) = Some r') as [r' Hr'] by (rewrite E; by destruct r; eexists).
      cbn [get_type]. destruct p; [|by exists r']. destruct t as [[]| | | | |]; try (by exists r'); by eexists.
    - by exists 1; eexists.
  Qed.
  Lemma make_fields_terminates ts : ∀ st, ∃ fuel r, ∀ fuel', fuel ≤ fuel' → make_fields p cd fuel' st ts = Some r.
  Proof.
    induction ts as [|t ts IH]; intros st; [exists 0; eexists; intros; done|].
    destruct (get_type_terminates _ t st (le_n _)) as (f1 & r1 & E1). destruct r1 as [[s i]|].
    - destruct (IH s) as (f2 & r2 & E2). exists (f1 `max` f2). eexists. intros fuel' Hf. cbn [make_fields].
      rewrite (get_type_mono f1 fuel' _ _ _ E1) by lia. simpl. rewrite E2 by lia. by instantiate (1 := (λ y, (y.1, i :: y.2)) <$> r2); destruct r2.
    - exists f1, None. intros fuel' Hf. cbn [make_fields]. by rewrite (get_type_mono f1 fuel' _ _ _ E1) by lia.
  Qed.
End terminates.

(** ** The structs that messages are made for are those that are used *)
Section visited.
  Context (p : plugin) (cd : code).
  Lemma users_uses t u : u ∈ users t → uses cd t (TUser u).
  Proof.
    induction t as [b|u'|t IH|k IHk v IHv|t IH|]; simpl; intros Hu; try set_solver.
    - apply elem_of_list_singleton in Hu as ->. apply uses_refl.
    - apply uses_ptr. by apply IH.
    - apply elem_of_app in Hu as [Hu|Hu]; [apply uses_key | apply uses_value]; auto.
    - apply uses_elem. by apply IH.
  Qed.
  Lemma uses_trans a b c : uses cd a b → uses cd b c → uses cd a c.
  Proof. induction 1; intros; [done|apply uses_ptr|apply uses_key|apply uses_value|apply uses_elem|eapply uses_field]; eauto. Qed.
  Lemma get_type_sound fuel st t st' i : get_type p cd fuel st t = Some (Some (st', i)) → ∀ u, u ∈ st' → u ∈ st ∨ uses cd t (TUser u).
  Proof.
    revert st t st' i. induction fuel as [|fuel IH]; intros st t st' i H u Hu; [done|].
    destruct t as [b|w|t|k v|t|]; cbn [get_type] in H.
    - destruct (basic_idl p b); simplify_eq/=. by left.
    - case_bool_decide; [simplify_eq/=; by left|]. destruct (cd !! w) as [ds|] eqn:Ed; [|done].
      match type of H with gbind (?L _ _) _ = _ => set (loop := L) in H end.
      assert (∀ fs a b, loop fs a = Some (Some b) → u ∈ b → u ∈ a ∨ ∃ f, f ∈ fs ∧ uses cd f.2 (TUser u)) as Hl.
      { induction fs as [|f fs IHf]; intros a b Hab Hb; simpl in Hab; [simplify_eq/=; by left|].
        destruct (get_type p cd fuel a f.2) as [[[c j]|]|] eqn:E; simpl in Hab; try done.
        destruct (IHf _ _ Hab Hb) as [Hc|(g & Hg & Hu')]; [|right; exists g; split; [by right|done]].
        destruct (IH _ _ _ _ E u Hc) as [Ha|Hf]; [by left|]. right. exists f. split; [left|done]. }
      destruct (loop (parsed_fields ds) ({[w]} ∪ st)) as [[b|]|] eqn:E; simpl in H; try done. inversion H; subst.
      destruct (Hl _ _ _ E Hu) as [[->%elem_of_singleton|Hs]%elem_of_union|([n t] & Hf & Hu')]; [right; apply uses_refl|by left|].
      right. eapply uses_field; [done|by apply parsed_go|done].
    - destruct (IH _ _ _ _ H u Hu); [by left|right; by apply uses_ptr].
    - destruct p.
      + destruct (map_key k); simpl in H; [|done]. destruct (get_type Grpc cd fuel st v) as [[[a j]|]|] eqn:E; simplify_eq/=.
        destruct (IH _ _ _ _ E u Hu); [by left|right; by apply uses_value].
      + destruct (get_type Thrift cd fuel st k) as [[[a j]|]|] eqn:E; simpl in H; try done.
        destruct (get_type Thrift cd fuel a v) as [[[c j']|]|] eqn:E'; simplify_eq/=.
        destruct (IH _ _ _ _ E' u Hu) as [Ha|]; [|right; by apply uses_value].
        destruct (IH _ _ _ _ E u Ha); [by left|right; by apply uses_key].
    - assert (gbind (get_type p cd fuel st t) (λ x, gret (x.1, IRep x.2)) = Some (Some (st', i)) → u ∈ st ∨ uses cd (TSlice t) (TUser u)) as Hs.
      { intros H'. destruct (get_type p cd fuel st t) as [[[a j]|]|] eqn:E; simplify_eq/=.
        destruct (IH _ _ _ _ E u Hu); [by left|right; by apply uses_elem]. }
      destruct p; [|by apply Hs]. destruct t as [[]| | | | |]; try (by apply Hs); simplify_eq/=. by left.
    - done.
  Qed.
  Lemma make_fields_sound fuel ts : ∀ st st' is, make_fields p cd fuel st ts = Some (Some (st', is)) →
    ∀ u, u ∈ st' → u ∈ st ∨ ∃ t, t ∈ ts ∧ uses cd t (TUser u).
  Proof.
    induction ts as [|t ts IH]; intros st st' is H u Hu; simpl in H; [simplify_eq/=; by left|].
    destruct (get_type p cd fuel st t) as [[[a j]|]|] eqn:E; simpl in H; try done.
    destruct (make_fields p cd fuel a ts) as [[[b js]|]|] eqn:E'; simplify_eq/=.
    destruct (IH _ _ _ E' u Hu) as [Ha|(t' & Ht & Hu')]; [|right; exists t'; split; [by right|done]].
    destruct (get_type_sound _ _ _ _ _ E u Ha) as [|Hs]; [by left|]. right. exists t. split; [left|done].
  Qed.
  Lemma make_fields_idls fuel ts : ∀ st st' is, make_fields p cd fuel st ts = Some (Some (st', is)) → Forall2 (λ t i, idl_of p t = Some i) ts is.
  Proof.
    induction ts as [|t ts IH]; intros st st' is H; simpl in H; [simplify_eq/=; constructor|].
    destruct (get_type p cd fuel st t) as [[[a j]|]|] eqn:E; simpl in H; try done.
    destruct (make_fields p cd fuel a ts) as [[[b js]|]|] eqn:E'; simplify_eq/=. constructor; [|by eapply IH].
    by apply get_type_covers in E as (_ & _ & ?).
  Qed.
  (** Every struct that is used, if all fields of all structs are plain. *)
  Lemma make_fields_complete fuel ts st is :
    make_fields p cd fuel ∅ ts = Some (Some (st, is)) → plain_fields cd ts → ∀ t u, t ∈ ts → uses cd t (TUser u) → u ∈ st.
  Proof.
    intros H Hpl t u Ht Hu. apply make_fields_covers in H as [[_ Hc] Hts].
    assert (∀ a c, uses cd a c → c = TUser u → uses cd t a → (∀ w, w ∈ users a → w ∈ st) → u ∈ st) as Hgen.
    { clear Hu. induction 1 as [t0|a b Hab IH|k v b Hab IH|k v b Hab IH|a b Hab IH|w ds n a b Hd Hin Hab IH]; intros -> Hta Hst.
      - apply Hst. simpl. set_solver.
      - apply IH; [done|eapply uses_trans; [exact Hta|apply uses_ptr, uses_refl]|done].
      - apply IH; [done|eapply uses_trans; [exact Hta|apply uses_key, uses_refl]|]. intros w Hw. apply Hst. simpl. set_solver.
      - apply IH; [done|eapply uses_trans; [exact Hta|apply uses_value, uses_refl]|]. intros w Hw. apply Hst. simpl. set_solver.
      - apply IH; [done|eapply uses_trans; [exact Hta|apply uses_elem, uses_refl]|done].
      - apply IH; [done|eapply uses_trans; [exact Hta|eapply uses_field; [done|done|apply uses_refl]]|].
        assert (w ∈ st) as Hw by (apply Hst; simpl; set_solver).
        destruct (Hc w Hw) as [_ Hf]; [set_solver|]. intros w' Hw'. apply (Hf (n, a)); [|done].
        unfold fields_of. rewrite Hd. simpl. rewrite <-(plain_names ds); [done|]. intros d Hdd. by eapply Hpl. }
    eapply Hgen; [exact Hu|done|apply uses_refl|]. intros w Hw. by eapply Hts.
  Qed.
End visited.
