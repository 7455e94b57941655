(** * Properties of the client registry (C31) *)
From Verif Require Import Registry_Model Registry_Spec Registry_Proof.

(** C31. For every history and every behaviour of the build functions: all Gets of the history return
    what the first one returned, whatever is registered or set as default afterwards; the first Get
    invokes at most one build function and later Gets invoke none. *)
Theorem C31_get_cached :
  ∀ o h1 h2, (∀ op, op ∈ h1 → ¬ is_get op) →
    ∃ res, (∀ x, x ∈ results o (h1 ++ OGet :: h2) → x = res) ∧
      results o (h1 ++ [OGet]) = [res] ∧
      invoked o (h1 ++ OGet :: h2) = invoked o (h1 ++ [OGet]) ∧ length (invoked o (h1 ++ [OGet])) ≤ 1.
Proof. exact get_cached. Qed.
Print Assumptions C31_get_cached.

(** Without a SetDefault after it, the first name registered is the one built, using the function most
    recently registered under that name. *)
Theorem C31_first_registered_wins :
  ∀ o h1 h2 n f g,
    (∀ op, op ∈ h1 → ¬ is_register op ∧ ¬ is_get op) → (∀ op, op ∈ h2 → ¬ is_setdefault op ∧ ¬ is_get op) →
    latest n (h1 ++ ORegister n f :: h2) g →
    results o ((h1 ++ ORegister n f :: h2) ++ [OGet]) = [o g 0] ∧
    invoked o ((h1 ++ ORegister n f :: h2) ++ [OGet]) = [g].
Proof. exact first_registered_wins. Qed.
Print Assumptions C31_first_registered_wins.

(** A SetDefault made after some registration, and not followed by another, is obeyed ... *)
Theorem C31_setdefault_wins :
  ∀ o h1 h2 n m f g,
    (∀ op, op ∈ h1 ++ h2 → ¬ is_get op) → (∀ op, op ∈ h2 → ¬ is_setdefault op) →
    ORegister m f ∈ h1 → latest n (h1 ++ OSetDefault n :: h2) g →
    results o ((h1 ++ OSetDefault n :: h2) ++ [OGet]) = [o g 0] ∧
    invoked o ((h1 ++ OSetDefault n :: h2) ++ [OGet]) = [g].
Proof. exact setdefault_wins. Qed.
Print Assumptions C31_setdefault_wins.

(** ... and if its name was never registered, Get reports that name and builds nothing. *)
Theorem C31_unknown_default_reported :
  ∀ o h1 h2 n m f,
    (∀ op, op ∈ h1 ++ h2 → ¬ is_get op) → (∀ op, op ∈ h2 → ¬ is_setdefault op) →
    ORegister m f ∈ h1 → never_registered n (h1 ++ h2) →
    results o ((h1 ++ OSetDefault n :: h2) ++ [OGet]) = [RUnknownDefault n] ∧
    invoked o ((h1 ++ OSetDefault n :: h2) ++ [OGet]) = [].
Proof. exact unknown_default. Qed.
Print Assumptions C31_unknown_default_reported.

Theorem C31_none_registered_reported :
  ∀ o h, (∀ op, op ∈ h → ¬ is_get op ∧ ¬ is_register op) →
    results o (h ++ [OGet]) = [RNoneRegistered] ∧ invoked o (h ++ [OGet]) = [].
Proof. exact none_registered. Qed.
Print Assumptions C31_none_registered_reported.

Example C31_nonvacuous :
  let o := λ f k, RClient (10 * f + k) in
  let h := [OSetDefault "x"; ORegister "a" 1; ORegister "b" 2; ORegister "a" 3] in
  results o (h ++ [OGet; ORegister "c" 4; OSetDefault "b"; OGet]) = [RClient 30; RClient 30] ∧
  invoked o (h ++ [OGet; ORegister "c" 4; OSetDefault "b"; OGet]) = [3] ∧
  results o (h ++ [OSetDefault "b"; OGet]) = [RClient 20] ∧
  results o (h ++ [OSetDefault "z"; OGet; OSetDefault "a"; OGet]) = [RUnknownDefault "z"; RUnknownDefault "z"] ∧
  latest "a" h 3.
Proof. split_and!; try by vm_compute. apply (latest_here "a" 3 [OSetDefault "x"; ORegister "a" 1; ORegister "b" 2]). Qed.

(** A SetDefault made before any registration is overridden by the first registration. *)
Theorem C31_early_setdefault_obeyed_refuted :
  ¬ (∀ o h n g, latest n h g → (∀ op, op ∈ h → ¬ is_get op) →
       results o ((OSetDefault n :: h) ++ [OGet]) = [o g 0]).
Proof.
  intros H. specialize (H (λ f _, RClient f) [ORegister "a" 1; ORegister "b" 2] "b" 2).
  assert (latest "b" [ORegister "a" 1; ORegister "b" 2] 2) as Hl by apply (latest_here "b" 2 [ORegister "a" 1]).
  specialize (H Hl). assert (∀ op, op ∈ [ORegister "a" 1; ORegister "b" 2] → ¬ is_get op) as Hg.
  { intros op Hop. repeat (apply elem_of_cons in Hop as [->|Hop]; [done|]). by apply elem_of_nil in Hop. }
  specialize (H Hg). by vm_compute in H.
Qed.
Print Assumptions C31_early_setdefault_obeyed_refuted.

(** Get is not synchronised: called concurrently, it can hand out the zero client without an error. *)
Theorem C31_concurrent_get_refuted :
  ¬ (∀ v n sched t res, cg_threads (cgrun v n sched) !! t = Some (GDone res) → res = RClient v).
Proof. intros H. specialize (H 7 2 [0; 0; 1] 1 RZero eq_refl). done. Qed.
Print Assumptions C31_concurrent_get_refuted.
