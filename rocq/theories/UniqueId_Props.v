(** * C83: the ids of posts and users of the social network *)
From Verif Require Import UniqueId_Model UniqueId_Spec UniqueId_Proof.
From stdpp Require Import list.
Open Scope Z_scope.

(** C83. Two ids of the same or of different services are equal exactly if the machines have the same id, the times
    fall into the same sixteen milliseconds, and the numbers of calls just before in the same millisecond
    have the same first hexadecimal digit. *)
Theorem C83_when_equal m m' ts ts' i j t t' n n' x x' :
  machine m → machine m' → Z.of_nat (length ts) < 2 ^ 63 → Z.of_nat (length ts') < 2 ^ 63 →
  gets m ts i t n x → gets m' ts' j t' n' x' → era t → era t' →
  x = x' ↔ m = m' ∧ t / 16 = t' / 16 ∧ ∃ d, first_digit (Z.of_nat n) d ∧ first_digit (Z.of_nat n') d.
Proof.
  intros Hm Hm' Hl Hl' Hg Hg' He He'. assert (0 ≤ t ∧ 0 ≤ t') as [H0 H0'] by (unfold era in He, He'; simpl in *; lia).
  rewrite (gets_id _ _ _ _ _ _ Hm H0 Hg), (gets_id _ _ _ _ _ _ Hm' H0' Hg'), id_of_eq by lia.
  rewrite (fitted_era t), (fitted_era t') by done.
  rewrite fitted_first_eq; [done|by eapply gets_lt|by eapply gets_lt].
Qed.
Print Assumptions C83_when_equal.
(** C83. So calls that are at least sixteen milliseconds apart, or on machines with different ids, get different ids,
    and on one machine later ones get larger ones. *)
Theorem C83_increasing m ts ts' i j t t' n n' x x' :
  machine m → gets m ts i t n x → gets m ts' j t' n' x' → era t → era t' → t + 16 ≤ t' → x < x'.
Proof.
  intros Hm Hg Hg' He He' Ht. assert (0 ≤ t ∧ 0 ≤ t') as [H0 H0'] by (unfold era in He, He'; simpl in *; lia).
  rewrite (gets_id _ _ _ _ _ _ Hm H0 Hg), (gets_id _ _ _ _ _ _ Hm H0' Hg'). unfold id_of.
  rewrite (fitted_era t), (fitted_era t') by done.
  pose proof (fitted_bound 1 (Z.of_nat n) ltac:(lia)). pose proof (fitted_bound 1 (Z.of_nat n') ltac:(lia)). change (16 ^ Z.of_nat 1) with 16 in *.
  assert (t / 16 + 1 ≤ t' / 16); [|lia]. rewrite <- Z.div_add by lia. apply Z.div_le_mono; lia.
Qed.
Print Assumptions C83_increasing.
(** C83. Every call is answered with a number of at most sixty bits. *)
Theorem C83_answered m ts i t :
  machine m → ts !! i = Some t → 0 ≤ t → ∃ n x, gets m ts i t n x ∧ 0 ≤ x < 2 ^ 60.
Proof. apply gets_exists. Qed.
Print Assumptions C83_answered.
(** C83. The scheme was made for shorter times: with them, only calls in the same millisecond can get the same id. *)
Theorem C83_early m m' ts ts' i j t t' n n' x x' :
  machine m → machine m' → Z.of_nat (length ts) < 2 ^ 63 → Z.of_nat (length ts') < 2 ^ 63 →
  gets m ts i t n x → gets m' ts' j t' n' x' → early t → early t' →
  x = x' ↔ m = m' ∧ t = t' ∧ ∃ d, first_digit (Z.of_nat n) d ∧ first_digit (Z.of_nat n') d.
Proof.
  intros Hm Hm' Hl Hl' Hg Hg' He He'. assert (0 ≤ t ∧ 0 ≤ t') as [H0 H0'] by (unfold early in He, He'; lia).
  rewrite (gets_id _ _ _ _ _ _ Hm H0 Hg), (gets_id _ _ _ _ _ _ Hm' H0' Hg'), id_of_eq by lia.
  rewrite (fitted_early t), (fitted_early t') by done.
  rewrite fitted_first_eq; [done|by eapply gets_lt|by eapply gets_lt].
Qed.
Print Assumptions C83_early.
(** C83. The id of a machine is the last two bytes of the address of its first interface that is up and has an
    address assigned by its maker. *)
Theorem C83_machine_id l a b c d e f l' :
  Forall (λ i, n_up i = false ∨ n_addr i = [] ∨ local_address i) l →
  address [a; b; c; d; e; f] → Z.testbit a 1 = false →
  machine_id (l ++ NetIf true [a; b; c; d; e; f] :: l') = e * 256 + f.
Proof. intros Hl Ha Ht. rewrite machine_id_skip by done. by apply machine_id_mac. Qed.
Print Assumptions C83_machine_id.

(** November 2023, on a machine with the address 00:1b:63:84:45:e6 *)
Definition mac : list netif := [NetIf true []; NetIf false [0; 1; 2; 3; 4; 5]; NetIf true [2; 66; 172; 17; 0; 2]; NetIf true [0; 27; 99; 132; 69; 230]].
Definition now : Z := 1700000000000.
Example C83_nonvacuous :
  machine_id mac = 0x45e6 ∧ era now ∧
  ids (machine_id mac) [now; now; now + 16; now + 15] =
    [Some 0x45e618bcfe56800; Some 0x45e618bcfe56801; Some 0x45e618bcfe56810; Some 0x45e618bcfe56800] ∧
  gets (machine_id mac) [now; now; now + 16; now + 15] 1 now 1 0x45e618bcfe56801 ∧ first_digit 1 1 ∧ first_digit 0x1f3 1.
Proof.
  split; [by vm_compute|]. split; [split; by vm_compute|]. split; [by vm_compute|]. split.
  - split; [done|]. split; [|by vm_compute]. split; [lia|]. split; [|lia].
    intros k Hk. destruct k as [|[|k]]; [done|done|lia].
  - split; (split; [lia|]; right; split; [lia|]); [exists 0; by vm_compute|exists 2; by vm_compute].
Qed.
Example C83_early_nonvacuous : early (2 ^ 39) ∧ ids 1 [2 ^ 39; 2 ^ 39 + 1] = [Some (16 ^ 11 + 2 ^ 39 * 16); Some (16 ^ 11 + (2 ^ 39 + 1) * 16)].
Proof. split; [by vm_compute|]. by vm_compute. Qed.

(** ** What does not hold *)

(** Two calls in successive milliseconds get the same id fifteen times out of sixteen. *)
Theorem C83_next_millisecond_refuted m t :
  machine m → era t → (t + 1) `mod` 16 ≠ 0 → ∃ x, ids m [t; t + 1] = [Some x; Some x].
Proof.
  intros Hm He Hmod. assert (0 ≤ t) as H0 by (unfold era in He; simpl in *; lia).
  assert ((t + 1) / 16 = t / 16) as Hd.
  { pose proof (Z.div_mod t 16). pose proof (Z.div_mod (t + 1) 16). pose proof (Z.mod_pos_bound t 16). pose proof (Z.mod_pos_bound (t + 1) 16). lia. }
  assert (era (t + 1)) as He'.
  { unfold era in *. split; [lia|]. destruct (decide (t + 1 = 16 ^ 11)) as [E|]; [|lia]. rewrite E in Hmod. by vm_compute in Hmod. }
  exists (id_of m t 0). unfold ids. cbn [ids_from]. 
  pose proof (new_id_eq m new_gen t Hm H0) as H1. destruct (new_id m new_gen t) as [a g] eqn:E.
  assert (get_counter new_gen t = (0, Gen 1 t)) as Hc.
  { unfold get_counter. cbn [new_gen g_current g_counter]. by destruct (Z.eqb_spec (-1) t) as [<-|]. }
  assert (g = Gen 1 t) as -> by (unfold new_id in E; rewrite Hc in E; by simplify_eq).
  assert (get_counter (Gen 1 t) (t + 1) = (0, Gen 1 (t + 1))) as Hc'.
  { unfold get_counter. cbn [g_current g_counter]. by destruct (Z.eqb_spec t (t + 1)); [lia|]. }
  pose proof (new_id_eq m (Gen 1 t) (t + 1) Hm ltac:(lia)) as H2. destruct (new_id m (Gen 1 t) (t + 1)) as [b g'].
  rewrite Hc in H1. rewrite Hc' in H2. simpl in H1, H2. rewrite H1, H2 by lia. do 3 f_equal. unfold id_of.
  by rewrite (fitted_era t), (fitted_era (t + 1)), Hd.
Qed.
Print Assumptions C83_next_millisecond_refuted.
(** In seventeen calls in the same sixteen milliseconds on a machine two get the same id: there are sixteen ids. *)
Theorem C83_sixteen_ids_refuted m ts (l : list nat) w :
  machine m → Z.of_nat (length ts) < 2 ^ 63 → NoDup l → (16 < length l)%nat →
  (∀ i, i ∈ l → ∃ t, ts !! i = Some t ∧ era t ∧ t / 16 = w) →
  ∃ i j x, i ∈ l ∧ j ∈ l ∧ i ≠ j ∧ ids m ts !! i = Some (Some x) ∧ ids m ts !! j = Some (Some x).
Proof. apply window_pigeons. Qed.
Print Assumptions C83_sixteen_ids_refuted.
(** Calls in one millisecond, or after the clock was set back, get equal ids too. *)
Theorem C83_one_millisecond_refuted :
  ids 0 (replicate 17 now) !! 1%nat = ids 0 (replicate 17 now) !! 16%nat ∧
  ids 0 [now; now - 100; now] !! 0%nat = ids 0 [now; now - 100; now] !! 2%nat.
Proof. split; by vm_compute. Qed.
Print Assumptions C83_one_millisecond_refuted.
(** Machines all of whose interfaces have local addresses, as containers do, have the same id: replicas that are
    called at the same time give the same ids. *)
Theorem C83_containers_refuted l l' ts :
  Forall local_address l → Forall local_address l' → ids (machine_id l) ts = ids (machine_id l') ts.
Proof.
  intros H H'. f_equal. assert (∀ l, Forall local_address l → machine_id l = 0) as Hz.
  { clear. intros l H. rewrite <- (app_nil_r l), machine_id_skip; [done|]. eapply Forall_impl; [exact H|]. unfold skipped. auto. }
  by rewrite !Hz.
Qed.
Print Assumptions C83_containers_refuted.
(** With a clock set before 1970 every call fails. *)
Theorem C83_past_refuted m ts i t : ts !! i = Some t → t < 0 → ids m ts !! i = Some None.
Proof. intros Hi Ht. unfold ids. rewrite (ids_from_lookup _ _ _ _ _ Hi). by rewrite new_id_past. Qed.
Print Assumptions C83_past_refuted.
