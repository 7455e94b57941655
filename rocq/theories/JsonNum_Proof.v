(** * Proofs about numbers in queries *)
From Verif Require Export JsonNum_Model.
Set Default Proof Using "Type".
Open Scope Z_scope.

Lemma float_small x : Z.abs x < 2 ^ 53 → float64 x = x.
Proof.
  intros H. unfold float64. destruct (Z.leb_spec (Z.log2 (Z.abs x) - 52) 0) as [|Hlt]; [done|]. exfalso.
  assert (0 < Z.abs x) as Hpos. { destruct (Z.eq_dec (Z.abs x) 0) as [E|]; [rewrite E in Hlt; simpl in Hlt; lia|lia]. }
  apply (Z.log2_lt_pow2 _ 53 Hpos) in H. lia.
Qed.
Lemma float_large x : 2 ^ 53 ≤ Z.abs x → 2 ^ 53 ≤ Z.abs (float64 x).
Proof.
  intros H. unfold float64. assert (53 ≤ Z.log2 (Z.abs x)) as Hl by (apply Z.log2_le_pow2; lia).
  destruct (Z.leb_spec (Z.log2 (Z.abs x) - 52) 0) as [|Hlt]; [lia|]. set (e := Z.log2 (Z.abs x) - 52) in *.
  assert (2 ^ 52 ≤ Z.abs x / 2 ^ e) as Hq.
  { apply Z.div_le_lower_bound; [lia|]. rewrite <-Z.pow_add_r by lia. replace (e + 52) with (Z.log2 (Z.abs x)) by lia. apply Z.log2_spec. lia. }
  set (q := Z.abs x / 2 ^ e) in *. set (q' := if 2 * (Z.abs x `mod` 2 ^ e) <? 2 ^ e then q else _).
  assert (2 ^ 52 ≤ q') as Hq'. { unfold q'. repeat case_match; pose proof (Z.mod_pos_bound q 2); lia. }
  assert (2 ^ 1 ≤ 2 ^ e) as He by (apply Z.pow_le_mono_r; lia).
  rewrite !Z.abs_mul. replace (Z.abs (Z.sgn x)) with 1 by lia. rewrite (Z.abs_eq q'), (Z.abs_eq (2 ^ e)) by lia. nia.
Qed.
Lemma shortest_small e v : 0 ≤ v < 2 ^ 53 → shortest e v = v.
Proof.
  intros Hv. induction e as [|e IH]; [done|]. cbn [shortest]. set (c := _ * 10 ^ Z.of_nat (S e)). destruct (Z.eqb_spec (float64 c) v) as [E|]; [|done].
  destruct (decide (Z.abs c < 2 ^ 53)) as [H|H]; [by rewrite float_small in E|]. pose proof (float_large c). lia.
Qed.
Lemma json_small x : Z.abs x ≤ 2 ^ 53 → json_num x = x.
Proof.
  intros H. destruct (decide (Z.abs x < 2 ^ 53)) as [Hlt|].
  - unfold json_num. rewrite float_small by done. rewrite shortest_small by lia. rewrite Z.mul_comm. apply Z.abs_sgn.
  - assert (x = 2 ^ 53 ∨ x = - 2 ^ 53) as [->| ->] by lia; vm_compute; reflexivity.
Qed.
