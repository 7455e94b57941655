(** * Model of numbers in the queries of the social network example: examples/dsb_sn/workflow/socialnetwork/common.go *)
From stdpp Require Export numbers.
Set Default Proof Using "Type".
Open Scope Z_scope.

(** common.go:75-95, through encoding/json: float64 keeps 53 bits, rounding to nearest even. *)
Definition float64 (x : Z) : Z :=
  let a := Z.abs x in
  let e := Z.log2 a - 52 in
  if e <=? 0 then x
  else
    let q := a / 2 ^ e in
    let r := a `mod` 2 ^ e in
    let q := if 2 * r <? 2 ^ e then q else if 2 ^ e <? 2 * r then q + 1 else q + q `mod` 2 in
    Z.sgn x * q * 2 ^ e.
(** common.go:75-95: how encoding/json writes a float64 that is a whole number: as few digits as give the same float64 when read, followed by zeros.  Simplified: of two
    such numbers equally near, the larger one. *)
Fixpoint shortest (e : nat) (v : Z) : Z :=
  match e with
  | O => v
  | S e' => let c := (v + 10 ^ Z.of_nat e / 2) / 10 ^ Z.of_nat e * 10 ^ Z.of_nat e in if float64 c =? v then c else shortest e' v
  end.
(** common.go:75-95: a query is read by encoding/json, which makes numbers float64, and written again.  Simplified: the last step, in which the bson
    library reads the text, keeps whole numbers as they are. *)
Definition json_num (x : Z) : Z := Z.sgn x * shortest 18 (Z.abs (float64 x)).
