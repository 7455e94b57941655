From Coq Require Import ZifyBool ZifyNat ZifyN Lia.
From Verif Require Import Filter_Model Filter_Spec.

(** ** Induction principles *)
Section val_ind.
  Variable P : val → Prop.
  Hypothesis HNil : P VNil. Hypothesis HBool : ∀ b, P (VBool b). Hypothesis HInt : ∀ t z, P (VInt t z).
  Hypothesis HFloat : ∀ s x, P (VFloat s x). Hypothesis HStr : ∀ s, P (VStr s). Hypothesis HOther : ∀ k i, P (VOther k i).
  Hypothesis HSlice : ∀ l, Forall P l → P (VSlice l). Hypothesis HE : P VE. Hypothesis HM : P VM.
  Hypothesis HArr : ∀ l, Forall P l → P (VArr l).
  Hypothesis HDoc : ∀ d, Forall (λ e, P e.2) d → P (VDoc d).
  Fixpoint val_ind' (v : val) : P v :=
    match v with
    | VNil => HNil | VBool b => HBool b | VInt t z => HInt t z | VFloat s x => HFloat s x | VStr s => HStr s
    | VOther k i => HOther k i | VE => HE | VM => HM
    | VSlice l => HSlice l ((fix go l := match l return Forall P l with [] => Forall_nil_2 _ | x :: l => Forall_cons_2 _ _ _ (val_ind' x) (go l) end) l)
    | VArr l => HArr l ((fix go l := match l return Forall P l with [] => Forall_nil_2 _ | x :: l => Forall_cons_2 _ _ _ (val_ind' x) (go l) end) l)
    | VDoc d => HDoc d ((fix go (d : doc) := match d return Forall (λ e, P e.2) d with [] => Forall_nil_2 _ | (k, x) :: d => Forall_cons_2 _ (k, x) _ (val_ind' x) (go d) end) d)
    end.
End val_ind.
Section query_ind.
  Variable P : query → Prop.
  Hypothesis HLit : ∀ p l, P (QLit p l). Hypothesis HArr : ∀ p l, P (QArr p l). Hypothesis HOps : ∀ p o, P (QOps p o).
  Hypothesis HAll : ∀ p l, P (QAll p l). Hypothesis HElem : ∀ p qs, Forall P qs → P (QElem p qs).
  Hypothesis HAnd : ∀ qss, Forall (Forall P) qss → P (QAnd qss). Hypothesis HOr : ∀ qss, Forall (Forall P) qss → P (QOr qss).
  Hypothesis HNor : ∀ qss, Forall (Forall P) qss → P (QNor qss). Hypothesis HNot : ∀ qs, Forall P qs → P (QNot qs).
  Fixpoint query_ind' (q : query) : P q :=
    let go := fix go qs := match qs return Forall P qs with [] => Forall_nil_2 _ | x :: l => Forall_cons_2 _ _ _ (query_ind' x) (go l) end in
    let gos := fix gos qss := match qss return Forall (Forall P) qss with [] => Forall_nil_2 _ | x :: l => Forall_cons_2 _ _ _ (go x) (gos l) end in
    match q with
    | QLit p l => HLit p l | QArr p l => HArr p l | QOps p o => HOps p o | QAll p l => HAll p l
    | QElem p qs => HElem p qs (go qs) | QAnd qss => HAnd qss (gos qss) | QOr qss => HOr qss (gos qss)
    | QNor qss => HNor qss (gos qss) | QNot qs => HNot qs (go qs)
    end.
End query_ind.

(** ** Filters that decide a predicate *)
Section filters.
Context (E : env).
Definition good (f : qfilter) (P : val → Prop) : Prop := ∀ v, ∃ b, fapply E f v = Some b ∧ (b = true ↔ P v).

Lemma good_ext f (P Q : val → Prop) : good f P → (∀ v, P v ↔ Q v) → good f Q.
Proof. intros H HPQ v. destruct (H v) as (b&?&?). exists b. split; [done|]. by rewrite <- HPQ. Qed.
Lemma good_exists : good FExists (λ _, True).
Proof. intros v. by exists true. Qed.
Lemma good_not f P : good f P → good (FNot f) (λ v, ¬ P v).
Proof.
  intros H v. destruct (H v) as (b&Hb&HP). exists (negb b). simpl. rewrite Hb. split; [done|].
  rewrite <- HP. by destruct b.
Qed.
Lemma good_and fs Ps : Forall2 good fs Ps → good (fand fs) (λ v, Forall (λ P, P v) Ps).
Proof.
  intros H. assert (good (FAnd fs) (λ v, Forall (λ P, P v) Ps)) as Hall.
  { induction H as [|f P fs Ps Hf Hfs IH]; intros v; [exists true; split; [done|]; split; [constructor|done]|].
    destruct (Hf v) as (b&Hb&HP). simpl. rewrite Hb. destruct b.
    - destruct (IH v) as (b&Hb'&HP'). exists b. split; [done|]. rewrite HP', Forall_cons. tauto.
    - exists false. split; [done|]. rewrite Forall_cons. split; [done|]. intros [HPv _]. by apply HP in HPv. }
  destruct H as [|f P fs Ps Hf Hfs]; [|destruct Hfs].
  - eapply good_ext; [apply good_exists|]. intros v. split; [constructor|done].
  - eapply good_ext; [exact Hf|]. intros v. by rewrite Forall_singleton.
  - exact Hall.
Qed.
Lemma good_or fs Ps : fs ≠ [] → Forall2 good fs Ps → good (for_ fs) (λ v, Exists (λ P, P v) Ps).
Proof.
  intros Hne H. assert (good (FOr fs) (λ v, Exists (λ P, P v) Ps)) as Hall.
  { clear Hne. induction H as [|f P fs Ps Hf Hfs IH]; intros v; [exists false; split; [done|]; split; [done|intros []%Exists_nil]|].
    destruct (Hf v) as (b&Hb&HP). simpl. rewrite Hb. destruct b.
    - exists true. split; [done|]. rewrite Exists_cons. split; [left; by apply HP|done].
    - destruct (IH v) as (b&Hb'&HP'). exists b. split; [done|]. rewrite HP', Exists_cons.
      split; [by right|]. intros [HPv|?]; [|done]. by apply HP in HPv. }
  destruct H as [|f P fs Ps Hf Hfs]; [|destruct Hfs].
  - done.
  - eapply good_ext; [exact Hf|]. intros v. rewrite Exists_cons, Exists_nil. tauto.
  - exact Hall.
Qed.
Lemma any_good f P a : good f P → ∃ b, any_opt (fapply E f) a = Some b ∧ (b = true ↔ ∃ x, x ∈ a ∧ P x).
Proof.
  intros Hf. induction a as [|y a IH]; simpl.
  - exists false. split; [done|]. split; [done|]. by intros (x&?%elem_of_nil&_).
  - destruct (Hf y) as (b&Hb&HP). rewrite Hb. destruct b.
    + exists true. split; [done|]. split; [|done]. intros _. exists y. split; [left|by apply HP].
    + destruct IH as (b&Hb'&HP'). exists b. split; [done|]. rewrite HP'. split.
      * intros (x&?&?). exists x. split; [by right|done].
      * intros (x&[->|?]%elem_of_cons&Hx); [by apply HP in Hx|by exists x].
Qed.
Lemma good_broadcast f P : good f P → good (FBroadcast f) (λ v, ∃ x, spread v x ∧ P x).
Proof.
  intros Hf v. assert ((∃ a, v = VArr a) ∨ (∀ a, v ≠ VArr a)) as [[a ->]|Hn] by (destruct v; eauto; right; done).
  - simpl. destruct (any_good f P a Hf) as (b&Hb&HP). by exists b.
  - destruct (Hf v) as (b&Hb&HP). exists b. split; [destruct v; try done; by destruct (Hn l)|]. rewrite HP. split.
    + intros Hv. exists v. split; [|done]. destruct v; try done. by destruct (Hn l).
    + intros (x&Hx&HPx). destruct v; simpl in Hx; try (by subst). by destruct (Hn l).
Qed.
Lemma good_select k f P : good f P → good (FSelect k f) (λ v, ∃ d x, v = VDoc d ∧ field k d = Some x ∧ P x).
Proof.
  intros Hf v. destruct v as [| | | | | | | | | |d]; try (exists false; split; [done|]; split; [done|]; by intros (?&?&?&_)).
  simpl. destruct (field k d) as [x|] eqn:Hx.
  - destruct (Hf x) as (b&Hb&HP). exists b. split; [done|]. rewrite HP. split; [by eauto|].
    intros (d'&y&[= <-]&Hy&HPy). rewrite Hx in Hy. by injection Hy as <-.
  - exists false. split; [done|]. split; [done|]. intros (d'&y&[= <-]&Hy&_). by rewrite Hx in Hy.
Qed.
Lemma good_index i f P : (0 ≤ i)%Z → good f P → good (FIndex i f) (λ v, ∃ a x, v = VArr a ∧ a !! Z.to_nat i = Some x ∧ P x).
Proof.
  intros Hi Hf v. destruct v as [| | | | | | | | |a|]; try (exists false; split; [done|]; split; [done|]; by intros (?&?&?&_)).
  simpl. case_bool_decide as Hlt.
  - rewrite bool_decide_false by lia. destruct (lookup_lt_is_Some_2 a (Z.to_nat i)) as [x Hx]; [lia|]. rewrite Hx.
    destruct (Hf x) as (b&Hb&HP). exists b. split; [done|]. rewrite HP. split; [by eauto|].
    intros (a'&y&[= <-]&Hy&HPy). rewrite Hx in Hy. by injection Hy as <-.
  - exists false. split; [done|]. split; [done|]. intros (a'&y&[= <-]&Hy%lookup_lt_Some&_). lia.
Qed.
Lemma good_all fs Ps : Forall2 good fs Ps →
  good (FAll fs) (λ v, ∃ a, v = VArr a ∧ Forall (λ P, ∃ x, x ∈ a ∧ P x) Ps).
Proof.
  intros H v. destruct v as [| | | | | | | | |a|]; try (exists false; split; [done|]; split; [done|]; by intros (?&?&_)).
  simpl. induction H as [|f P fs Ps Hf Hfs IH].
  - exists true. split; [done|]. split; [|done]. intros _. exists a. by split; [|constructor].
  - destruct (any_good f P a Hf) as (b&Hb&HP). rewrite Hb. destruct b.
    + destruct IH as (b&Hb'&HP'). exists b. split; [done|]. rewrite HP'. split.
      * intros (a'&[= <-]&Ha). exists a. split; [done|]. constructor; [by apply HP|done].
      * intros (a'&[= <-]&[_ Ha]%Forall_cons). by exists a.
    + exists false. split; [done|]. split; [done|]. intros (a'&[= <-]&[Ha _]%Forall_cons). by apply HP in Ha.
Qed.
Lemma good_exact ks : good (FExact ks) (λ v, ∃ d, v = VDoc d ∧ ∀ k, k ∈ keys d → k ∈ ks).
Proof.
  intros v. eexists. split; [done|]. destruct v as [| | | | | | | | | |d]; try (split; [done|]; by intros (?&?&_)).
  rewrite forallb_forall. split.
  - intros H. exists d. split; [done|]. intros k (e&->&He%elem_of_list_In)%elem_of_list_fmap. specialize (H e He).
    by apply bool_decide_eq_true in H.
  - intros (d'&[= <-]&H) e He%elem_of_list_In. apply bool_decide_eq_true, H, elem_of_list_fmap. by exists e.
Qed.
Lemma good_equals v : (match v with VArr _ | VDoc _ | VE | VM => False | _ => True end) → good (equals E v) (matches E v).
Proof.
  intros Hv w. destruct v; try done; try by (eexists; split; [done|]).
  - eexists. split; [done|]. simpl. destruct (int_value w) as [y|]; [|done].
    rewrite Z.eqb_eq. split; [by intros ->|by intros [= ->]].
  - eexists. split; [done|]. simpl. destruct (float_value E w) as [y|].
    + split; [intros ?; by exists y|]. by intros (y'&[= <-]&?).
    + split; [done|]. by intros (y'&?&_).
Qed.

(** ** Literals *)
Lemma parse_value_good l : wf_lit l → ∃ f, parse_value E l = Some f ∧ good f (matches E l).
Proof.
  induction l as [| | | | | | | | |a IH|d IH] using val_ind'; intros Hwf;
    try done; try by (eexists; split; [done|by apply good_equals]).
  - (* array *)
    assert (∃ fs Ps, (∀ acc, (fix go (a : list val) (i : Z) (acc : list qfilter) : option qfilter :=
        match a with
        | [] => Some (fand acc)
        | x :: a =>
            match x with
            | VArr _ => None
            | _ => match parse_value E x with None => None | Some f => go a (i + 1)%Z (acc ++ [FIndex i f]) end
            end
        end) a 0%Z acc = Some (fand (acc ++ fs))) ∧ Forall2 good fs Ps ∧
        ∀ v, Forall (λ P, P v) Ps ↔ matches E (VArr a) v) as (fs&Ps&H1&H2&H3).
    { cut (∀ i, (0 ≤ i)%Z → ∃ fs Ps, (∀ acc, (fix go (a : list val) (i : Z) (acc : list qfilter) : option qfilter :=
        match a with
        | [] => Some (fand acc)
        | x :: a =>
            match x with
            | VArr _ => None
            | _ => match parse_value E x with None => None | Some f => go a (i + 1)%Z (acc ++ [FIndex i f]) end
            end
        end) a i acc = Some (fand (acc ++ fs))) ∧ Forall2 good fs Ps ∧
        ∀ v, Forall (λ P, P v) Ps ↔ (a = [] ∨ ∃ a', v = VArr a') ∧
           ∀ a', v = VArr a' → (fix go (la a : list val) := match la, a with
        | [], _ => True | x :: la, y :: a => matches E x y ∧ go la a | _, _ => False end) a (drop (Z.to_nat i) a')).
      { intros H. destruct (H 0%Z) as (fs&Ps&H1&H2&H3); [lia|]. exists fs, Ps. split_and!; [done..|]. intros v. by rewrite H3. }
      induction IH as [|x a Hx Ha IHa]; intros i Hi.
      - exists [], []. split_and!; [intros; by rewrite app_nil_r|constructor|].
        intros v. split; [|intros _; constructor]. intros _. split; [by left|done].
      - destruct Hwf as (Hna&Hwx&Hwa). destruct (Hx Hwx) as (f&Hf&Hg).
        destruct (IHa Hwa (i + 1)%Z) as (fs&Ps&H1&H2&H3); [lia|].
        exists (FIndex i f :: fs), ((λ v, ∃ a x', v = VArr a ∧ a !! Z.to_nat i = Some x' ∧ matches E x x') :: Ps).
        split_and!.
        + intros acc. specialize (H1 (acc ++ [FIndex i f])). rewrite <- app_assoc in H1.
          destruct x; try done; by rewrite Hf.
        + constructor; [by apply good_index|done].
        + intros v. rewrite Forall_cons, H3. split.
          * intros ((a'&x'&->&Hl&Hm)&_&Hr). split; [right; by exists a'|]. intros a'' [= <-].
            specialize (Hr a' eq_refl). rewrite (drop_S _ _ _ Hl). split; [done|].
            by replace (Z.to_nat (i + 1)) with (S (Z.to_nat i)) in Hr by lia.
          * intros [[?|[a' ->]] Hr]; [done|]. specialize (Hr a' eq_refl).
            destruct (drop (Z.to_nat i) a') as [|y rest] eqn:Hd; [done|]. destruct Hr as [Hm Hr].
            assert (a' !! Z.to_nat i = Some y) as Hl.
            { rewrite <- (Nat.add_0_r (Z.to_nat i)), <- lookup_drop, Hd. done. }
            split; [by exists a', y|]. split; [right; by exists a'|]. intros a'' [= <-].
            rewrite (drop_S _ _ _ Hl) in Hd. injection Hd as Hd.
            replace (Z.to_nat (i + 1)) with (S (Z.to_nat i)) by lia. by rewrite Hd. }
    exists (fand fs). split; [exact (H1 [])|]. eapply good_ext; [by apply good_and|done].
  - (* document *)
    assert (∃ fs Ps, (∀ acc seen, (fix go (d : doc) (acc : list qfilter) (seen : list string) : option qfilter :=
        match d with
        | [] => Some (fand (acc ++ [FExact seen]))
        | (k, x) :: d =>
            if dollar k then None else if has_dot k then None
            else match parse_value E x with
                 | None => None
                 | Some f => go d (acc ++ [FSelect k f]) (seen ++ [k])
                 end
        end) d acc seen = Some (fand ((acc ++ fs) ++ [FExact (seen ++ keys d)]))) ∧ Forall2 good fs Ps ∧
        ∀ d', Forall (λ P, P (VDoc d')) Ps ↔ (fix go (ld : doc) := match ld with
        | [] => True | (k, x) :: ld => (∃ y, field k d' = Some y ∧ matches E x y) ∧ go ld end) d) as (fs&Ps&H1&H2&H3).
    { induction IH as [|[k x] d Hx Hd IHd].
      - exists [], []. split_and!; [intros; by rewrite !app_nil_r|constructor|]. intros. split; [done|constructor].
      - destruct Hwf as (Hk1&Hk2&Hwx&Hwd). cbn [snd] in Hx. destruct (Hx Hwx) as (f&Hf&Hg).
        destruct (IHd Hwd) as (fs&Ps&H1&H2&H3).
        exists (FSelect k f :: fs), ((λ v, ∃ d x', v = VDoc d ∧ field k d = Some x' ∧ matches E x x') :: Ps). split_and!.
        + intros acc seen. rewrite Hk1, Hk2, Hf. rewrite H1. change (keys ((k, x) :: d)) with (k :: keys d).
          by rewrite <- !(app_assoc _ [_]).
        + constructor; [by apply good_select|done].
        + intros d'. rewrite Forall_cons, H3. split.
          * intros ((d''&x'&[= <-]&?&?)&?). split; [by exists x'|done].
          * intros ((y&?&?)&?). split; [by exists d', y|done]. }
    exists (fand (fs ++ [FExact (keys d)])). split; [exact (H1 [] [])|].
    eapply good_ext; [apply good_and, Forall2_app; [exact H2|constructor; [apply good_exact|constructor]]|].
    intros v. rewrite Forall_app, Forall_singleton. split.
    + intros [Ha (d'&->&Hk)]. exists d'. split_and!; [done..|]. by apply H3.
    + intros (d'&->&Hk&Ha). split; [exact (proj2 (H3 d') Ha)|by exists d'].
Qed.

Lemma parse_values_good ls : (∀ l, l ∈ ls → wf_lit l) →
  ∃ fs, mapM (parse_value E) ls = Some fs ∧ Forall2 good fs (map (matches E) ls).
Proof.
  induction ls as [|l ls IH]; intros Hwf; [exists []; split; [done|constructor]|].
  destruct (parse_value_good l) as (f&Hf&Hg); [apply Hwf; left|].
  destruct IH as (fs&Hfs&Hgs); [intros; apply Hwf; by right|].
  exists (f :: fs). simpl. rewrite Hf. simpl. rewrite Hfs. split; [done|]. by constructor.
Qed.

(** ** Paths *)
Lemma split_dot_nodot s : has_dot s = false → split_dot s = [s].
Proof.
  induction s as [|c s IH]; [done|]. simpl. intros [Hc Hs]%orb_false_iff. rewrite Hc, IH by done. done.
Qed.
Lemma split_dot_app s r : has_dot s = false → split_dot (s ++ "." ++ r)%string = s :: split_dot r.
Proof.
  intros Hs. change ("." ++ r)%string with (String "." r). induction s as [|c s IH]; [done|].
  cbn [has_dot] in Hs. apply orb_false_iff in Hs as [Hc Hs]. specialize (IH Hs).
  change (String c s ++ String "." r)%string with (String c (s ++ String "." r)%string). cbn [split_dot]. by rewrite Hc, IH.
Qed.

Fixpoint all_digits (s : string) : bool :=
  match s with EmptyString => true | String c s => match digit c with Some _ => all_digits s | None => false end end.
Lemma digit_char d : (d < 10)%N → digit (pretty_N_char d) = Some (Z.of_N d).
Proof.
  intros H. assert (d = 0 ∨ d = 1 ∨ d = 2 ∨ d = 3 ∨ d = 4 ∨ d = 5 ∨ d = 6 ∨ d = 7 ∨ d = 8 ∨ d = 9)%N as Hd by lia.
  by repeat destruct Hd as [->|Hd]; [..|subst d].
Qed.
Lemma go_digits x : ∃ k, (∀ s, all_digits s = true → all_digits (pretty_N_go x s) = true) ∧
  (∀ acc s, digits acc (pretty_N_go x s) = digits (acc * 10 ^ Z.of_nat k + Z.of_N x) s).
Proof.
  induction (N.lt_wf_0 x) as [x _ IH]. destruct (decide (0 < x)%N) as [Hx|Hx].
  - destruct (IH (x `div` 10)%N) as (k&H1&H2); [by apply N.div_lt|].
    pose proof (digit_char (x `mod` 10)) as Hd. specialize (Hd ltac:(apply N.mod_lt; lia)).
    exists (S k). split.
    + intros s Hs. rewrite pretty_N_go_step by done. apply H1. cbn [all_digits]. by rewrite Hd.
    + intros acc s. rewrite pretty_N_go_step, H2 by done. cbn [digits]. rewrite Hd. f_equal.
      rewrite Nat2Z.inj_succ, Z.pow_succ_r by lia. pose proof (N.div_mod x 10). lia.
  - exists 0. assert (x = 0%N) as -> by lia. split; [done|]. intros acc s. rewrite pretty_N_go_0. f_equal. lia.
Qed.
Lemma pretty_digits i : all_digits (pretty i) = true ∧ digits 0 (pretty i) = Some (Z.of_N i) ∧ (pretty i : string) ≠ ""%string.
Proof.
  unfold pretty, pretty_N. case_decide as Hi; [by subst|].
  destruct (go_digits i) as (k&H1&H2). split_and!; [by apply H1|by rewrite H2|].
  intros H. specialize (H2 1%Z ""%string). rewrite H in H2. cbn [digits] in H2.
  injection H2 as H2. assert (0 < 10 ^ Z.of_nat k)%Z by (apply Z.pow_pos_nonneg; lia). lia.
Qed.
Lemma atoi_pretty i : (i < 2 ^ 63)%N → atoi (pretty i) = Some (Z.of_N i).
Proof.
  intros Hi. destruct (pretty_digits i) as (H1&H2&H3). destruct (pretty i : string) as [|c s] eqn:Hp; [done|].
  unfold atoi. rewrite bool_decide_false; [|by intros ->]. rewrite bool_decide_false; [|by intros ->].
  rewrite H2. unfold in_int64. rewrite bool_decide_true; [done|].
  change (2 ^ 63)%N with (Z.to_N (2 ^ 63)) in Hi. split; [|lia]. trans 0%Z; [|lia]. done.
Qed.
Lemma all_digits_nodot s : all_digits s = true → has_dot s = false.
Proof.
  induction s as [|c s IH]; [done|]. simpl. intros H. destruct (digit c) eqn:Hc; [|done]. rewrite IH by done.
  rewrite bool_decide_false; [done|]. by intros ->.
Qed.
Lemma seg_nodot g : wf_seg g → has_dot (seg_string g) = false.
Proof. destruct g as [k|i]; [by intros [? _]|]. intros _. apply all_digits_nodot, pretty_digits. Qed.

Lemma split_path p : p ≠ [] → Forall wf_seg p → split_dot (path_string p) = map seg_string p.
Proof.
  intros Hne Hwf. induction Hwf as [|g p Hg Hp IH]; [done|]. destruct p as [|g' p].
  - simpl. by apply split_dot_nodot, seg_nodot.
  - change (path_string (g :: g' :: p)) with (seg_string g ++ "." ++ path_string (g' :: p))%string.
    rewrite split_dot_app by (by apply seg_nodot). by rewrite IH.
Qed.

Lemma lookup_good first p f P : Forall wf_seg p → good f P →
  good (lookup_path first (map seg_string p) f) (λ v, ∃ w, reach first p v w ∧ P w).
Proof.
  intros Hwf Hf. revert first. induction Hwf as [|g p Hg Hp IH]; intros first; simpl.
  - eapply good_ext; [exact Hf|]. intros v. split; [intros; exists v; split; [constructor|done]|].
    intros (w&Hw&HP). by inversion Hw; subst.
  - specialize (IH false). destruct g as [k|i]; simpl.
    + destruct Hg as [_ ->]. destruct first.
      * eapply good_ext; [by apply good_select|]. intros v. split.
        -- intros (d&x&->&Hx&(w&Hw&HP)). exists w. split; [|done]. econstructor; [by constructor|done].
        -- intros (w&Hw&HP). inversion Hw as [|? ? ? ? x ? Hs Hr]; subst. inversion Hs; subst; [|done]. eexists _, _. eauto.
      * eapply good_ext; [by apply good_broadcast, good_select|]. intros v. split.
        -- intros (y&Hy&(d&x&->&Hx&(w&Hw&HP))). exists w. split; [|done]. econstructor; [|done].
           destruct v; simpl in Hy; try discriminate Hy; [by eapply step_any|]. injection Hy as ->. by constructor.
        -- intros (w&Hw&HP). inversion Hw as [|? ? ? ? x ? Hs Hr]; subst. inversion Hs; subst.
           ++ exists (VDoc d). split; [done|]. eexists _, _. eauto.
           ++ exists (VDoc d). split; [done|]. eexists _, _. eauto.
    + rewrite atoi_pretty by done. eapply good_ext; [by apply good_index; [lia|]|]. intros v. split.
      * intros (a&x&->&Hx&(w&Hw&HP)). exists w. split; [|done]. econstructor; [|done]. constructor.
        by replace (N.to_nat i) with (Z.to_nat (Z.of_N i)) by lia.
      * intros (w&Hw&HP). inversion Hw as [|? ? ? ? x ? Hs Hr]; subst. inversion Hs; subst.
        eexists _, _. split; [done|]. split; [|by exists w].
        by replace (Z.to_nat (Z.of_N i)) with (N.to_nat i) by lia.
Qed.
Lemma flookup_good p f P : wf_path p → good f P →
  good (flookup (path_string p) f) (λ v, ∃ w, reach true p v w ∧ P w).
Proof. intros (Hne&Hwf&_) Hf. unfold flookup. rewrite split_path by done. by apply lookup_good. Qed.

(** ** Value operators *)
Lemma good_cmp k c n : numeric n → num_cmp k = Some c →
  ∃ f, parse_numeric E k n = Some f ∧ good f (λ v, compares E c v n).
Proof.
  intros Hn Hc. unfold parse_numeric. destruct n; try done; simpl; rewrite Hc; eexists; (split; [done|]); intros v; eexists; (split; [done|]); simpl.
  - destruct (int_value v) as [w|].
    + destruct c; simpl; rewrite ?Z.eqb_eq, ?Z.ltb_lt, ?Z.leb_le; (split; [intros; eexists; by eauto|]); intros (w'&[= <-]&?); done.
    + split; [done|]. by intros (?&?&_).
  - destruct (float_value E v) as [w|].
    + destruct c; simpl; (split; [intros; eexists; by eauto|]); intros (w'&[= <-]&?); done.
    + split; [done|]. by intros (?&?&_).
Qed.

Lemma parse_op_good o : wf_op E o → ∃ f, parse_value_op E (op_bson o).1 (op_bson o).2 = Some f ∧ good f (op_sat E o).
Proof.
  destruct o as [l|l|n|n|n|n|ls|re]; simpl; intros Hwf; unfold parse_value_op.
  - assert (parse_numeric E "$eq" l = None ∨ (numeric l ∧ ∃ f, parse_numeric E "$eq" l = Some f)) as [->|[Hn [f Hf]]].
    { destruct l; simpl; eauto; right; (split; [done|]); unfold parse_numeric; simpl; eauto. }
    + rewrite bool_decide_true by done. by apply parse_value_good.
    + rewrite Hf. exists f. split; [done|]. destruct (good_cmp "$eq" CEq l Hn eq_refl) as (f'&Hf'&Hg).
      rewrite Hf in Hf'. injection Hf' as <-. eapply good_ext; [exact Hg|]. intros v. destruct l; try done; simpl.
      split; [by intros (w&->&->)|intros ->; eauto].
  - assert (parse_numeric E "$ne" l = None) as ->.
    { unfold parse_numeric. destruct (int_value l); [done|]. by destruct (float_value E l). }
    simpl. destruct (parse_value_good l Hwf) as (f&->&Hg). exists (FNot f). split; [done|]. by apply good_not.
  - destruct (good_cmp "$gt" CGt n Hwf eq_refl) as (f&->&Hg). by exists f.
  - destruct (good_cmp "$gte" CGte n Hwf eq_refl) as (f&->&Hg). by exists f.
  - destruct (good_cmp "$lt" CLt n Hwf eq_refl) as (f&->&Hg). by exists f.
  - destruct (good_cmp "$lte" CLte n Hwf eq_refl) as (f&->&Hg). by exists f.
  - simpl. destruct (parse_values_good ls Hwf) as (fs&Hfs&Hgs).
    rewrite Hfs. destruct fs as [|f fs].
    + eexists. split; [done|]. eapply good_ext; [apply good_not, good_exists|]. intros v.
      destruct ls; [|by inversion Hgs]. split; [tauto|]. by intros (l&?%elem_of_nil&_).
    + eexists. split; [done|]. eapply good_ext; [by apply good_or|]. intros v.
      rewrite Exists_exists. split.
      * intros (P&HP&Hv). apply elem_of_list_fmap in HP as (l&->&Hl). by exists l.
      * intros (l&Hl&Hm). exists (matches E l). split; [|done]. apply elem_of_list_fmap. by exists l.
  - simpl. rewrite Hwf. eexists. split; [done|]. intros v. eexists. split; [done|]. simpl. destruct v; try by (split; [done|]; intros (?&?&_)).
    split; [by eauto|]. by intros (s'&[= <-]&?).
Qed.
Lemma parse_ops_good ops : (∀ o, o ∈ ops → wf_op E o) →
  ∃ f, parse_value_ops E (map op_bson ops) = Some f ∧ good f (λ v, ∀ o, o ∈ ops → op_sat E o v).
Proof.
  intros Hwf. assert (∃ fs, mapM (λ e : string * val, parse_value_op E e.1 e.2) (map op_bson ops) = Some fs ∧
    Forall2 good fs (map (op_sat E) ops)) as (fs&Hfs&Hgs).
  { induction ops as [|o ops IH]; [exists []; split; [done|constructor]|].
    destruct (parse_op_good o) as (f&Hf&Hg); [apply Hwf; left|]. destruct IH as (fs&Hfs&Hgs); [intros; apply Hwf; by right|].
    exists (f :: fs). simpl. rewrite Hf. simpl. rewrite Hfs. split; [done|by constructor]. }
  exists (fand fs). unfold parse_value_ops. rewrite Hfs. split; [done|]. eapply good_ext; [by apply good_and|].
  intros v. rewrite Forall_forall. split.
  - intros H o Ho. apply (H (op_sat E o)). apply elem_of_list_fmap. by exists o.
  - intros H P (o&->&Ho)%elem_of_list_fmap. by apply H.
Qed.
Lemma op_dollar o : dollar (op_bson o).1 = true.
Proof. by destruct o. Qed.
Lemma op_not_array o : (op_bson o).1 ≠ "$all"%string ∧ (op_bson o).1 ≠ "$elemMatch"%string ∧ (op_bson o).1 ≠ "$exists"%string.
Proof. by destruct o. Qed.
Lemma ops_no_exists ops : parse_exists (map op_bson ops) = Some None.
Proof.
  induction ops as [|o ops IH]; [done|]. simpl. destruct (op_bson o) as [k v] eqn:Ho.
  destruct (op_not_array o) as (_&_&H). rewrite Ho in H. simpl in H. by rewrite bool_decide_false.
Qed.
Lemma wf_lit_nodollar d : wf_lit (VDoc d) → existsb (λ e : string * val, dollar e.1) d = false.
Proof. induction d as [|[k x] d IH]; [done|]. intros (Hk&_&_&Hd). simpl. rewrite Hk. by apply IH. Qed.

(** ** Queries *)
Lemma dollar_key k p : wf_path p → dollar k = true → path_string p ≠ k.
Proof. intros (_&_&H) Hk <-. by rewrite Hk in H. Qed.

Definition pq : doc → list qfilter → option qfilter := fix go (d : doc) (acc : list qfilter) : option qfilter :=
    match d with
    | [] => Some (fand acc)
    | (k, x) :: d => match parse_cond E k x with Some f => go d (acc ++ [f]) | None => None end
    end.
Definition pqs : list val → list qfilter → option (list qfilter) := fix gos (a : list val) (acc : list qfilter) : option (list qfilter) :=
    match a with
    | [] => Some acc
    | x :: a =>
        match x with
        | VDoc d => match pq d [] with Some f => gos a (acc ++ [f]) | None => None end
        | _ => None
        end
    end.

Definition array_ops : doc → list qfilter → option (list qfilter) :=
  fix goa (ops : doc) (acc : list qfilter) : option (list qfilter) :=
          match ops with
          | [] => Some acc
          | (k', x) :: ops =>
              if bool_decide (k' = "$all"%string) then
                match x with
                | VArr l => match mapM (parse_value E) l with Some fs => goa ops (acc ++ [FAll fs]) | None => None end
                | _ => None
                end
              else if bool_decide (k' = "$elemMatch"%string) then
                match x with
                | VDoc d => match pq d [] with Some f => goa ops (acc ++ [FBroadcast f]) | None => None end
                | _ => None
                end
              else goa ops acc
          end.
Definition parse_field (k : string) (v : val) : option qfilter :=
  match v with
  | VDoc ops =>
      if existsb (λ e, dollar e.1) ops then
        match array_ops ops [] with
        | None => None
        | Some (f :: fs) =>
            if bool_decide (length (f :: fs) = length ops) then Some (flookup k (fand (f :: fs))) else None
        | Some [] =>
            match parse_exists ops with
            | None => None
            | Some (Some f) => Some f
            | Some None => match parse_value_ops E ops with Some f => Some (flookup k (FBroadcast f)) | None => None end
            end
        end
      else match parse_value E v with Some f => Some (flookup k (FBroadcast f)) | None => None end
  | VArr a => match parse_value E v with Some f => Some (flookup k f) | None => None end
  | VE | VM => None
  | _ => Some (flookup k (FBroadcast (equals E v)))
  end.
Lemma parse_cond_nodollar k v : dollar k = false → parse_cond E k v = parse_field k v.
Proof.
  intros Hk. assert (∀ k', dollar k' = true → k ≠ k') as Hne by (intros k' Hk' ->; by rewrite Hk in Hk').
  destruct v; cbn [parse_cond]; rewrite !(bool_decide_false (k = _)) by (by apply Hne); by rewrite Hk.
Qed.
Lemma parse_cond_field p v : wf_path p → parse_cond E (path_string p) v = parse_field (path_string p) v.
Proof. intros (_&_&H). by apply parse_cond_nodollar. Qed.

Definition goodq (q : query) : Prop :=
  wf_query E q → ∃ f, parse_cond E (query_bson q).1 (query_bson q).2 = Some f ∧ good f (sat E q).
Notation wfs := (fix go (qs : list query) := match qs with [] => True | q :: qs => wf_query E q ∧ go qs end).
Notation wfss := (fix go (qss : list (list query)) := match qss with [] => True | qs :: qss => wfs qs ∧ go qss end).
Notation alls := (fix go (qs : list query) (v : val) := match qs with [] => True | q :: qs => sat E q v ∧ go qs v end).

Lemma alls_sats qs v : alls qs v ↔ sats E qs v.
Proof. unfold sats. induction qs as [|q qs IH]; [by split; [constructor|]|]. rewrite Forall_cons, <- IH. done. Qed.
Lemma pq_good qs : Forall goodq qs → wfs qs →
  ∃ fs, (∀ acc, pq (map query_bson qs) acc = Some (fand (acc ++ fs))) ∧ Forall2 good fs (map (sat E) qs).
Proof.
  induction 1 as [|q qs Hq Hqs IH]; intros Hwf.
  - exists []. split; [intros; simpl; by rewrite app_nil_r|constructor].
  - destruct Hwf as [Hw1 Hw2]. destruct (Hq Hw1) as (f&Hf&Hg). destruct (IH Hw2) as (fs&Hfs&Hgs).
    exists (f :: fs). split; [|by constructor]. intros acc. simpl. destruct (query_bson q) as [k x] eqn:Hkx. simpl in *.
    rewrite Hf, Hfs. by rewrite <- app_assoc.
Qed.
Lemma pq_good' qs : Forall goodq qs → wfs qs → ∃ f, pq (map query_bson qs) [] = Some f ∧ good f (sats E qs).
Proof.
  intros Hq Hwf. destruct (pq_good qs Hq Hwf) as (fs&Hfs&Hgs). exists (fand fs). split; [apply Hfs|].
  eapply good_ext; [by apply good_and|]. intros v. unfold sats. by rewrite Forall_map.
Qed.
Lemma pqs_good qss : Forall (Forall goodq) qss → wfss qss →
  ∃ fs, (∀ acc, pqs (map (λ qs, VDoc (map query_bson qs)) qss) acc = Some (acc ++ fs)) ∧ Forall2 good fs (map (sats E) qss).
Proof.
  induction 1 as [|qs qss Hq Hqs IH]; intros Hwf.
  - exists []. split; [intros; simpl; by rewrite app_nil_r|constructor].
  - destruct Hwf as [Hw1 Hw2]. destruct (pq_good' qs Hq Hw1) as (f&Hf&Hg). destruct (IH Hw2) as (fs&Hfs&Hgs).
    exists (f :: fs). split; [|by constructor]. intros acc. simpl. rewrite Hf, Hfs. by rewrite <- app_assoc.
Qed.

Lemma or_sat qss v :
  (qss = [] ∨ (fix go (qss : list (list query)) (v : val) := match qss with [] => False | qs :: qss => alls qs v ∨ go qss v end) qss v) ↔
  (qss = [] ∨ Exists (λ P, P v) (map (sats E) qss)).
Proof.
  assert (∀ qss, (fix go (qss : list (list query)) (v : val) := match qss with [] => False | qs :: qss => alls qs v ∨ go qss v end) qss v ↔
    Exists (λ P, P v) (map (sats E) qss)) as H.
  { clear qss. induction qss as [|qs qss IH]; [by rewrite Exists_nil|]. simpl. rewrite Exists_cons, <- IH, <- alls_sats. done. }
  by rewrite H.
Qed.
Lemma or_good qss fs : Forall2 good fs (map (sats E) qss) → good (for_ fs) (λ v, qss = [] ∨ Exists (λ P, P v) (map (sats E) qss)).
Proof.
  intros Hg. destruct qss as [|qs qss].
  - inversion Hg; subst. eapply good_ext; [apply good_exists|]. intros v. split; [by left|done].
  - eapply good_ext; [apply (good_or fs); [by inversion Hg|exact Hg]|]. intros v. split; [by right|]. by intros [?|?].
Qed.

Lemma parse_cond_good q : goodq q.
Proof.
  induction q as [p l|p ls|p ops|p ls|p qs IH|qss IH|qss IH|qss IH|qs IH] using query_ind'; intros Hwf.
  - destruct Hwf as (Hp&Hl&Hna). destruct (parse_value_good l Hl) as (f&Hf&Hg).
    exists (flookup (path_string p) (FBroadcast f)). split.
    + unfold query_bson. cbn [fst snd]. rewrite parse_cond_field by done.
      destruct l; try done; try (simpl in Hf; by injection Hf as <-).
      cbn [parse_field]. rewrite (wf_lit_nodollar d Hl). by rewrite Hf.
    + eapply good_ext; [by apply flookup_good, good_broadcast|]. intros v. simpl. split.
      * intros (w&?&x&?&?). by exists w, x.
      * intros (w&x&?&?&?). exists w. split; [done|]. by exists x.
  - destruct Hwf as (Hp&Hl). destruct (parse_value_good (VArr ls) Hl) as (f&Hf&Hg).
    exists (flookup (path_string p) f). split.
    + unfold query_bson. cbn [fst snd]. rewrite parse_cond_field by done. cbn [parse_field]. by rewrite Hf.
    + by apply flookup_good.
  - destruct Hwf as (Hp&Hne&Hops). destruct (parse_ops_good ops Hops) as (f&Hf&Hg).
    exists (flookup (path_string p) (FBroadcast f)). split.
    + unfold query_bson. cbn [fst snd]. rewrite parse_cond_field by done. cbn [parse_field].
      assert (existsb (λ e : string * val, dollar e.1) (map op_bson ops) = true) as ->.
      { destruct ops as [|o ops]; [done|]. simpl. by rewrite op_dollar. }
      assert (∀ acc, array_ops (map op_bson ops) acc = Some acc) as Hgoa.
      { clear Hops Hf Hg Hne. induction ops as [|o ops IHo]; intros acc; [done|]. simpl. destruct (op_bson o) as [k x] eqn:Ho.
        destruct (op_not_array o) as (H1&H2&_). rewrite Ho in H1, H2. simpl in H1, H2.
        rewrite !bool_decide_false by done. apply IHo. }
      rewrite Hgoa, ops_no_exists, Hf. done.
    + eapply good_ext; [by apply flookup_good, good_broadcast|]. intros v. simpl. split.
      * intros (w&?&x&?&?). by exists w, x.
      * intros (w&x&?&?&?). exists w. split; [done|]. by exists x.
  - destruct Hwf as (Hp&Hl). destruct (parse_values_good ls Hl) as (fs&Hfs&Hgs).
    exists (flookup (path_string p) (FAll fs)). split.
    + unfold query_bson. cbn [fst snd]. rewrite parse_cond_field by done. cbn [parse_field].
      simpl. by rewrite Hfs.
    + eapply good_ext; [by apply flookup_good, good_all|]. intros v. simpl. split.
      * intros (w&Hw&(a&->&Ha)). exists a. split; [done|]. intros l Hl'. rewrite Forall_map, Forall_forall in Ha. by apply Ha.
      * intros (a&Hw&Ha). exists (VArr a). split; [done|]. exists a. split; [done|]. rewrite Forall_map, Forall_forall. done.
  - destruct Hwf as (Hp&Hwf). destruct (pq_good' qs IH Hwf) as (f&Hf&Hg).
    exists (flookup (path_string p) (FBroadcast f)). split.
    + change (query_bson (QElem p qs)) with (path_string p, VDoc [("$elemMatch"%string, VDoc (map query_bson qs))]).
      cbn [fst snd]. rewrite parse_cond_field by done. simpl. by rewrite Hf.
    + eapply good_ext; [by apply flookup_good, good_broadcast|]. intros v. simpl. setoid_rewrite alls_sats. split.
      * intros (w&?&x&?&?). by exists w, x.
      * intros (w&x&?&?&?). exists w. split; [done|]. by exists x.
  - destruct (pqs_good qss IH Hwf) as (fs&Hfs&Hgs). exists (fand fs). split.
    + simpl. specialize (Hfs []). unfold pqs, pq in Hfs. by rewrite Hfs.
    + eapply good_ext; [by apply good_and|]. intros v. simpl. clear.
      induction qss as [|qs qss IH]; simpl; [by split; [|constructor]|]. rewrite Forall_cons, IH, alls_sats. done.
  - destruct (pqs_good qss IH Hwf) as (fs&Hfs&Hgs). exists (for_ fs). split.
    + simpl. specialize (Hfs []). unfold pqs, pq in Hfs. by rewrite Hfs.
    + eapply good_ext; [by apply or_good|]. intros v. simpl. by rewrite or_sat.
  - destruct (pqs_good qss IH Hwf) as (fs&Hfs&Hgs). exists (FNot (for_ fs)). split.
    + simpl. specialize (Hfs []). unfold pqs, pq in Hfs. by rewrite Hfs.
    + eapply good_ext; [by apply good_not, or_good|]. intros v. simpl. by rewrite or_sat.
  - destruct (pq_good' qs IH Hwf) as (f&Hf&Hg). exists (FNot f). split.
    + simpl. unfold pq in Hf. by rewrite Hf.
    + eapply good_ext; [by apply good_not|]. intros v. simpl. by rewrite alls_sats.
Qed.

Lemma parse_filter_good qs : Forall (wf_query E) qs →
  ∃ f, parse_filter E (map query_bson qs) = Some f ∧ ∀ v, ∃ b, fapply E f v = Some b ∧ (b = true ↔ sats E qs v).
Proof.
  intros Hwf. unfold parse_filter.
  assert (∃ fs, mapM (λ e : string * val, parse_cond E e.1 e.2) (map query_bson qs) = Some fs ∧ Forall2 good fs (map (sat E) qs)) as (fs&Hfs&Hgs).
  { induction Hwf as [|q qs Hq Hqs IH]; [exists []; split; [done|constructor]|].
    destruct (parse_cond_good q Hq) as (f&Hf&Hg). destruct IH as (fs&Hfs&Hgs).
    exists (f :: fs). simpl. rewrite Hf. simpl. rewrite Hfs. split; [done|by constructor]. }
  rewrite Hfs. exists (fand fs). split; [done|].
  eapply good_ext; [by apply good_and|]. intros v. unfold sats. by rewrite Forall_map.
Qed.
End filters.

(** ** Array literals *)
Lemma matches_prefix E ls a :
  matches E (VArr ls) (VArr a) ↔
  length ls ≤ length a ∧ ∀ i l x, ls !! i = Some l → a !! i = Some x → matches E l x.
Proof.
  cut ((fix go (la a : list val) := match la, a with
        | [], _ => True | x :: la, y :: a => matches E x y ∧ go la a | _, _ => False end) ls a ↔
     length ls ≤ length a ∧ ∀ i l x, ls !! i = Some l → a !! i = Some x → matches E l x).
  { intros H. simpl. split.
    - intros [_ Ha]. apply H. by apply Ha.
    - intros Ha. split; [right; by exists a|]. intros a' [= <-]. by apply H. }
  revert a. induction ls as [|l ls IH]; intros a.
  - simpl. split; [|done]. intros _. split; [lia|]. intros i l x Hi. by rewrite lookup_nil in Hi.
  - destruct a as [|y a]; simpl; [split; [done|lia]|]. rewrite IH. split.
    + intros (Hm&Hl&Hr). split; [lia|]. intros [|i] l' x; simpl; [by intros [= <-] [= <-]|by apply Hr].
    + intros (Hl&Hr). split; [by apply (Hr 0)|]. split; [lia|]. intros i. apply (Hr (S i)).
Qed.
Lemma array_query E p ls : wf_query E (QArr p ls) → ls ≠ [] →
  ∃ f, parse_filter E [query_bson (QArr p ls)] = Some f ∧ ∀ v, ∃ b, fapply E f v = Some b ∧
    (b = true ↔ ∃ a, reach true p v (VArr a) ∧ length ls ≤ length a ∧
       ∀ i l x, ls !! i = Some l → a !! i = Some x → matches E l x).
Proof.
  intros Hwf Hne. destruct (parse_filter_good E [QArr p ls]) as (f&Hf&Hg); [by constructor|].
  exists f. split; [exact Hf|]. intros v. destruct (Hg v) as (b&Hb&Hs). exists b. split; [done|]. rewrite Hs.
  unfold sats. rewrite Forall_singleton. cbn [sat]. split.
  - intros (w&Hw&Hm). pose proof Hm as [[?|[a ->]] _]; [done|]. apply matches_prefix in Hm. by exists a.
  - intros (a&Hw&Hm). exists (VArr a). split; [done|]. by apply matches_prefix.
Qed.

(** ** $exists *)
Lemma parse_filter_single E k v : parse_filter E [(k, v)] = parse_cond E k v.
Proof. unfold parse_filter. destruct (parse_cond E k v) eqn:H; simpl; by rewrite H. Qed.
Lemma exists_false E k : dollar k = false →
  ∃ f, parse_filter E [(k, VDoc [("$exists"%string, VBool false)])] = Some f ∧
    ∀ d, fapply E f (VDoc d) = Some (bool_decide (field "$exists" d = None)).
Proof.
  intros Hk. rewrite parse_filter_single, parse_cond_nodollar by done.
  eexists. split; [reflexivity|]. intros d. simpl.
  by destruct (field "$exists" d).
Qed.
Lemma exists_true E k : dollar k = false → parse_filter E [(k, VDoc [("$exists"%string, VBool true)])] = None.
Proof. intros Hk. by rewrite parse_filter_single, parse_cond_nodollar. Qed.
