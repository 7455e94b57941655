From Coq Require Import Lia.
From Verif Require Import Registry_Model Registry_Spec.

Lemma rhist_app o r h1 h2 :
  rhist o r (h1 ++ h2) =
  ((rhist o (rhist o r h1).1 h2).1, (rhist o r h1).2 ++ (rhist o (rhist o r h1).1 h2).2).
Proof.
  revert r. induction h1 as [|op h1 IH]; intros r; simpl; [by destruct (rhist o r h2)|].
  destruct (rexec o r op) as [r1 res]. rewrite IH. destruct (rhist o r1 h1) as [r2 out]. simpl.
  by destruct res.
Qed.

Notation st o h := (rhist o new_registry h).1.

Lemma built_stays o r h res :
  r_built r = Some res → r_built (rhist o r h).1 = Some res ∧ r_calls (rhist o r h).1 = r_calls r ∧
  (∀ x, x ∈ (rhist o r h).2 → x = res).
Proof.
  revert r. induction h as [|op h IH]; intros r Hb; simpl.
  - split_and!; try done. by intros x ?%elem_of_nil.
  - assert (r_built (rexec o r op).1 = Some res ∧ r_calls (rexec o r op).1 = r_calls r ∧
            (∀ x, (rexec o r op).2 = Some x → x = res)) as (H1&H2&H3).
    { destruct op; simpl; try done. unfold rget. rewrite Hb. simpl. split_and!; [done..|]. by intros x [= <-]. }
    destruct (rexec o r op) as [r1 x1]. simpl in *. destruct (IH r1 H1) as (H4&H5&H6).
    destruct (rhist o r1 h) as [r2 out]. simpl in *. split_and!; [done|congruence|].
    intros x Hx. destruct x1 as [x1|]; [|by apply H6].
    apply elem_of_cons in Hx as [->|Hx]; [by apply H3|by apply H6].
Qed.

Lemma get_builds o r : r_built r = None → ∃ res, r_built (rget o r).1 = Some res ∧ (rget o r).2 = res.
Proof. intros H. unfold rget. rewrite H. case_bool_decide; [by eexists|]. case_match; by eexists. Qed.

Lemma noget o r h : (∀ op, op ∈ h → ¬ is_get op) →
  (rhist o r h).2 = [] ∧ r_built (rhist o r h).1 = r_built r ∧ r_calls (rhist o r h).1 = r_calls r.
Proof.
  revert r. induction h as [|op h IH]; intros r Hh; simpl; [done|].
  assert (¬ is_get op) as Hop by (apply Hh; left).
  destruct op as [n|n f|]; [| |by destruct Hop]; simpl.
  - destruct (IH (Registry n (r_registered r) (r_built r) (r_calls r))) as (?&?&?); [intros; apply Hh; by right|].
    destruct (rhist o _ h). done.
  - match goal with |- context [rhist o ?r1 h] => destruct (IH r1) as (?&?&?) end; [intros; apply Hh; by right|].
    destruct (rhist o _ h). done.
Qed.

(** Every Get after the first repeats its result and invokes nothing. *)
Lemma get_cached o h1 h2 : (∀ op, op ∈ h1 → ¬ is_get op) →
  ∃ res, (∀ x, x ∈ results o (h1 ++ OGet :: h2) → x = res) ∧
    results o (h1 ++ [OGet]) = [res] ∧
    invoked o (h1 ++ OGet :: h2) = invoked o (h1 ++ [OGet]) ∧ length (invoked o (h1 ++ [OGet])) ≤ 1.
Proof.
  intros Hg. destruct (noget o new_registry h1 Hg) as (H1&H2&H3).
  destruct (get_builds o (st o h1)) as (res&Hb&Hres); [done|].
  exists res. unfold results, invoked. change (OGet :: h2) with ([OGet] ++ h2). rewrite app_assoc.
  rewrite (rhist_app o new_registry (h1 ++ [OGet])). rewrite (rhist_app o new_registry h1 [OGet]). simpl.
  destruct (rget o (st o h1)) as [r1 x1] eqn:Hget. simpl in *. subst x1.
  destruct (built_stays o r1 h2 res Hb) as (H4&H5&H6). rewrite H1. simpl. split_and!.
  - intros x [->|Hx]%elem_of_cons; [done|by apply H6].
  - done.
  - done.
  - unfold rget in Hget. rewrite H2 in Hget. simpl in Hget. case_bool_decide; [injection Hget as <- ?; simpl; rewrite H3; simpl; lia|].
    case_match; injection Hget as <- ?; simpl; rewrite ?app_length, H3; simpl; lia.
Qed.

Lemma rget_fields o r : r_registered (rget o r).1 = r_registered r ∧ r_default (rget o r).1 = r_default r.
Proof. unfold rget. destruct (r_built r); [done|]. case_bool_decide; [done|]. by destruct (r_registered r !! r_default r). Qed.

(** The registered map is the latest registration of each name. *)
Lemma reg_step o h op n :
  r_registered (st o (h ++ [op])) !! n =
  match op with ORegister m f => if decide (m = n) then Some f else r_registered (st o h) !! n | _ => r_registered (st o h) !! n end.
Proof.
  rewrite rhist_app. simpl. destruct op as [m|m f|]; simpl; [done| |].
  - destruct (decide (m = n)) as [->|]; [by rewrite lookup_insert|by rewrite lookup_insert_ne].
  - destruct (rget_fields o (st o h)) as [E _]. destruct (rget o (st o h)). simpl in *. by rewrite E.
Qed.
Lemma latest_reg o h n f : latest n h f → r_registered (st o h) !! n = Some f.
Proof.
  induction 1 as [f h|op f h H IH Hop]; rewrite reg_step; [by rewrite decide_True|].
  destruct op as [m|m g|]; try done. rewrite decide_False; [done|]. intros ->. by apply (Hop g).
Qed.
Lemma never_reg o h n : never_registered n h → r_registered (st o h) !! n = None.
Proof.
  induction h as [|op h IH] using rev_ind; [done|]. intros H. rewrite reg_step.
  assert (never_registered n h) as Hh. { intros f Hf. apply (H f), elem_of_app. by left. }
  destruct op as [m|m f|]; try by apply IH. rewrite decide_False; [by apply IH|].
  intros ->. apply (H f), elem_of_app. right. by left.
Qed.
Lemma reg_nonempty o h n f : ORegister n f ∈ h → r_registered (st o h) ≠ ∅.
Proof.
  induction h as [|op h IH] using rev_ind; [by intros ?%elem_of_nil|].
  intros [Hin|Heq%elem_of_list_singleton]%elem_of_app He; [|subst op].
  - assert (∀ k, r_registered (st o (h ++ [op])) !! k = None) as Hk by (intros k; by rewrite He).
    apply (IH Hin). apply map_eq. intros k. rewrite lookup_empty. specialize (Hk k). rewrite reg_step in Hk.
    destruct op; try done. by case_decide.
  - assert (r_registered (st o (h ++ [ORegister n f])) !! n = None) as Hk by (by rewrite He).
    rewrite reg_step, decide_True in Hk by done. done.
Qed.
Lemma reg_empty o h : (∀ op, op ∈ h → ¬ is_register op) → r_registered (st o h) = ∅.
Proof.
  intros H. apply map_eq. intros k. rewrite lookup_empty. apply never_reg. intros f Hf. apply (H _ Hf). by eexists _, _.
Qed.

(** The default is unchanged by later operations that are not SetDefault, once something is registered. *)
Lemma default_step o h op :
  r_default (st o (h ++ [op])) =
  match op with OSetDefault n => n
  | ORegister n _ => if bool_decide (r_registered (st o h) = ∅) then n else r_default (st o h)
  | OGet => r_default (st o h) end.
Proof.
  rewrite rhist_app. simpl. destruct op; simpl; try done.
  destruct (rget_fields o (st o h)) as [_ E]. destruct (rget o (st o h)). simpl in *. by rewrite E.
Qed.
Lemma default_kept o h1 h2 n f :
  ORegister n f ∈ h1 → (∀ op, op ∈ h2 → ¬ is_setdefault op) → r_default (st o (h1 ++ h2)) = r_default (st o h1).
Proof.
  intros Hin. induction h2 as [|op h2 IH] using rev_ind; intros H; [by rewrite app_nil_r|].
  rewrite app_assoc, default_step.
  assert (r_registered (st o (h1 ++ h2)) ≠ ∅) as Hne.
  { eapply reg_nonempty, elem_of_app. by left. }
  rewrite <- IH by (intros op' ?; apply H, elem_of_app; by left).
  destruct op as [m|m g|]; try done.
  - destruct (H (OSetDefault m)); [apply elem_of_app; right; by left|by eexists].
  - by rewrite bool_decide_false.
Qed.
Lemma default_no_register o h1 h2 n :
  (∀ op, op ∈ h2 → ¬ is_setdefault op) → (∀ op, op ∈ h2 → ¬ is_register op) →
  r_default (st o ((h1 ++ [OSetDefault n]) ++ h2)) = n.
Proof.
  induction h2 as [|op h2 IH] using rev_ind; intros H1 H2; [by rewrite app_nil_r, default_step|].
  rewrite app_assoc, default_step. destruct op as [m|m g|].
  - destruct (H1 (OSetDefault m)); [apply elem_of_app; right; by left|by eexists].
  - destruct (H2 (ORegister m g)); [apply elem_of_app; right; by left|by eexists _, _].
  - apply IH; intros op' ?; [apply H1|apply H2]; apply elem_of_app; by left.
Qed.

Lemma first_get_selects o h n f g :
  (∀ op, op ∈ h → ¬ is_get op) → ORegister n f ∈ h → r_default (st o h) = n → latest n h g →
  results o (h ++ [OGet]) = [o g 0] ∧ invoked o (h ++ [OGet]) = [g].
Proof.
  intros Hg Hin Hd Hl. destruct (noget o new_registry h Hg) as (H1&H2&H3).
  unfold results, invoked. rewrite rhist_app. simpl. unfold rget. rewrite H2. simpl.
  rewrite bool_decide_false by (by eapply reg_nonempty). rewrite Hd, (latest_reg o h n g Hl). simpl.
  rewrite H3, H1. done.
Qed.

Lemma latest_exists h n f : ORegister n f ∈ h → ∃ g, latest n h g.
Proof.
  induction h as [|op h IH] using rev_ind; [by intros ?%elem_of_nil|].
  intros Hin. assert ((∃ g, op = ORegister n g) ∨ ¬ ∃ g, op = ORegister n g) as [[g ->]|Hn].
  { destruct op as [m|m g|]; try (right; by intros [? [=]]).
    destruct (decide (m = n)) as [->|]; [left; by eexists|right; intros [? [=]]; done]. }
  - exists g. constructor.
  - apply elem_of_app in Hin as [Hin| Hin%elem_of_list_singleton]; [|subst; destruct Hn; by eexists].
    destruct (IH Hin) as [g Hl]. exists g. constructor; [done|]. intros g' ->. apply Hn. by eexists.
Qed.

Lemma first_registered_wins o h1 h2 n f g :
  (∀ op, op ∈ h1 → ¬ is_register op ∧ ¬ is_get op) → (∀ op, op ∈ h2 → ¬ is_setdefault op ∧ ¬ is_get op) →
  latest n (h1 ++ ORegister n f :: h2) g →
  results o ((h1 ++ ORegister n f :: h2) ++ [OGet]) = [o g 0] ∧ invoked o ((h1 ++ ORegister n f :: h2) ++ [OGet]) = [g].
Proof.
  intros Ha Hb Hl. eapply (first_get_selects _ _ n f); try done.
  - intros op [Hin|[->|Hin]%elem_of_cons]%elem_of_app; [by apply Ha|done|by apply Hb].
  - apply elem_of_app. right. by left.
  - change (ORegister n f :: h2) with ([ORegister n f] ++ h2). rewrite app_assoc.
    rewrite (default_kept o (h1 ++ [ORegister n f]) h2 n f).
    + rewrite default_step, bool_decide_true; [done|]. apply reg_empty. intros. by apply Ha.
    + apply elem_of_app. right. by left.
    + intros. by apply Hb.
Qed.

Lemma setdefault_wins o h1 h2 n m f g :
  (∀ op, op ∈ h1 ++ h2 → ¬ is_get op) → (∀ op, op ∈ h2 → ¬ is_setdefault op) →
  ORegister m f ∈ h1 → latest n (h1 ++ OSetDefault n :: h2) g →
  results o ((h1 ++ OSetDefault n :: h2) ++ [OGet]) = [o g 0] ∧ invoked o ((h1 ++ OSetDefault n :: h2) ++ [OGet]) = [g].
Proof.
  intros Ha Hb Hin Hl.
  assert (∀ op, op ∈ h1 ++ OSetDefault n :: h2 → ¬ is_get op) as Hng.
  { intros op [Hop|[->|Hop]%elem_of_cons]%elem_of_app; [|done|]; apply Ha, elem_of_app; auto. }
  assert (ORegister n g ∈ h1 ++ OSetDefault n :: h2) as Hreg.
  { clear -Hl. induction Hl as [g h|op g h Hl IH Hop]; apply elem_of_app; [right; by left|by left]. }
  eapply (first_get_selects _ _ n); [done|exact Hreg| |done].
  change (OSetDefault n :: h2) with ([OSetDefault n] ++ h2). rewrite app_assoc.
  rewrite (default_kept o (h1 ++ [OSetDefault n]) h2 m f); [by rewrite default_step| |done].
  apply elem_of_app. by left.
Qed.

Lemma unknown_default o h1 h2 n m f :
  (∀ op, op ∈ h1 ++ h2 → ¬ is_get op) → (∀ op, op ∈ h2 → ¬ is_setdefault op) →
  ORegister m f ∈ h1 → never_registered n (h1 ++ h2) →
  results o ((h1 ++ OSetDefault n :: h2) ++ [OGet]) = [RUnknownDefault n] ∧
  invoked o ((h1 ++ OSetDefault n :: h2) ++ [OGet]) = [].
Proof.
  intros Ha Hb Hin Hnev.
  assert (∀ op, op ∈ h1 ++ OSetDefault n :: h2 → ¬ is_get op) as Hng.
  { intros op [Hop|[->|Hop]%elem_of_cons]%elem_of_app; [|done|]; apply Ha, elem_of_app; auto. }
  destruct (noget o new_registry _ Hng) as (H1&H2&H3).
  unfold results, invoked. rewrite rhist_app. cbn [rhist rexec]. unfold rget. rewrite H2. simpl.
  rewrite bool_decide_false by (eapply reg_nonempty, elem_of_app; by left).
  assert (r_default (st o (h1 ++ OSetDefault n :: h2)) = n) as Hd.
  { change (OSetDefault n :: h2) with ([OSetDefault n] ++ h2). rewrite app_assoc.
    rewrite (default_kept o (h1 ++ [OSetDefault n]) h2 m f); [by rewrite default_step| |done].
    apply elem_of_app. by left. }
  rewrite Hd, never_reg; simpl; [by rewrite H3, H1|].
  intros g [Hop|[?|Hop]%elem_of_cons]%elem_of_app; [|done|]; apply (Hnev g), elem_of_app; auto.
Qed.

Lemma none_registered o h :
  (∀ op, op ∈ h → ¬ is_get op ∧ ¬ is_register op) →
  results o (h ++ [OGet]) = [RNoneRegistered] ∧ invoked o (h ++ [OGet]) = [].
Proof.
  intros Ha. destruct (noget o new_registry h) as (H1&H2&H3); [intros; by apply Ha|].
  unfold results, invoked. rewrite rhist_app. simpl. unfold rget. rewrite H2. simpl.
  rewrite bool_decide_true by (apply reg_empty; intros; by apply Ha). simpl. by rewrite H3, H1.
Qed.
