(** * Remote calls: what a caller may expect of a call *)
From Verif Require Export RpcCall_Model Rpc_Spec.
Set Default Proof Using "Type".

(** Types whose values arrive (C55): code is generated and compiles, and they are made of basic types, slices and
    structs with one field per declaration. *)
Definition sendable (p : plugin) (cd : code) (ts : list ty) : Prop :=
  (∃ names fuel, generates p cd names fuel ts = true) ∧ no_pointers cd ts ∧ no_maps cd ts ∧ plain_fields cd ts.
(** Values of these types; strings are UTF-8 for gRPC, ints fit 32 bits for Thrift. *)
Definition values (p : plugin) (round32 : N → N) (utf8 : string → bool) (cd : code) (vs : list gval) (ts : list ty) : Prop :=
  Forall2 (has_type (match p with Grpc => 64 | Thrift => 32 end) round32 cd) vs ts ∧
  (p = Grpc → ∀ v s, v ∈ vs → s ∈ strings_in v → utf8 s = true).

(** Values that encoding/json encodes (as a text that is not empty) and decodes again. *)
Definition json_ok (enc : ty → gval → option string) (dec : ty → string → option gval) (v : gval) (t : ty) : Prop :=
  ∃ s, enc t v = Some s ∧ s ≠ "" ∧ dec t s = Some v.
(** A string parameter is not encoded. *)
Definition http_ok enc dec (v : gval) (t : ty) : Prop :=
  match t with TBasic BString => ∃ s, v = VB (VStr s) | _ => json_ok enc dec v t end.
