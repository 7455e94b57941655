(** * Model of the ids of the social network example: UniqueIdService.go, UserService.go (RegisterUser), common.go

    Paths are relative to examples/dsb_sn/workflow/socialnetwork.  A string of hexadecimal digits is a list of digit
    values with a sign where there is one.  Calls come one at a time (the counter is not synchronised). *)
From stdpp Require Export numbers gmap list.
Set Default Proof Using "Type".
Open Scope Z_scope.

Inductive hexc := Digit (d : Z) | Minus.
(** strconv.FormatInt(x, 16): an int64 has at most 16 digits. *)
Fixpoint digits (k : nat) (n : Z) : list Z :=
  if n <? 16 then [n] else match k with O => [] | S k => digits k (n / 16) ++ [n `mod` 16] end.
Definition format (x : Z) : list hexc :=
  if x <? 0 then Minus :: (Digit <$> digits 15 (- x)) else Digit <$> digits 15 x.
(** strconv.ParseInt(s, 16, 64) for a string that does not begin with a sign *)
Fixpoint value (acc : Z) (s : list hexc) : option Z :=
  match s with
  | [] => Some acc
  | Digit d :: s => value (acc * 16 + d) s
  | Minus :: _ => None
  end.
Definition parse (s : list hexc) : option Z :=
  match value 0 s with Some x => if x <? 2 ^ 63 then Some x else None | None => None end.
(** UniqueIdService.go:46-50, 52-56: exactly [w] characters, cut off at the end or filled with zeros at the front *)
Definition fit (w : nat) (s : list hexc) : list hexc :=
  if bool_decide (w < length s)%nat then take w s
  else if bool_decide (length s < w)%nat then replicate (w - length s) (Digit 0) ++ s else s.

(** UniqueIdService.go:18-22 *)
Record gen := Gen { g_counter : Z; g_current : Z }.
(** UniqueIdService.go:26 *)
Definition new_gen : gen := Gen 0 (-1).
(** UniqueIdService.go:29-39 and UserService.go:66-76 *)
Definition get_counter (g : gen) (t : Z) : Z * gen :=
  if g_current g =? t then (g_counter g, Gen (g_counter g + 1) (g_current g)) else (0, Gen 1 t).
(** UniqueIdService.go:42-65 and UserService.go:209-228: an id given the machine id and the milliseconds that the
    clock shows; [None] is an error. *)
Definition new_id (machine : Z) (g : gen) (t : Z) : option Z * gen :=
  let '(idx, g) := get_counter g t in
  let s := format machine ++ fit 10 (format t) ++ fit 1 (format idx) in
  ((λ x, Z.land x (2 ^ 63 - 1)) <$> parse s, g).
(** A service that is called when the clock shows [ts] *)
Fixpoint ids_from (machine : Z) (g : gen) (ts : list Z) : list (option Z) :=
  match ts with
  | [] => []
  | t :: ts => let '(x, g) := new_id machine g t in x :: ids_from machine g ts
  end.
Definition ids (machine : Z) (ts : list Z) : list (option Z) := ids_from machine new_gen ts.

(** common.go:14-44: a network interface, up or not, with the bytes of its hardware address.  That the interfaces
    cannot be listed is as if there were none. *)
Record netif := NetIf { n_up : bool; n_addr : list Z }.
Fixpoint machine_id (l : list netif) : Z :=
  match l with
  | [] => 0
  | i :: l =>
      match n_addr i with
      | b :: _ =>
          if n_up i && negb (Z.land b 2 =? 2) then foldl (λ mac b, (mac * 256 + b) `mod` 2 ^ 64) 0 (take 8 (n_addr i)) `mod` 2 ^ 16
          else machine_id l
      | [] => machine_id l
      end
  end.
