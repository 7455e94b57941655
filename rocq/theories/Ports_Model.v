(** * Model of port assignment: blueprint/pkg/coreplugins/address/portassignment.go *)
From stdpp Require Export strings gmap.
Set Default Proof Using "Type".

(** address/ir.go:30-62: the fields of [BindConfig] that port assignment reads or writes.
    [uint16] fields are [N]s below 65536. *)
Record bind := Bind {
  b_key : string;          (* addressConfig.Key *)
  b_addr : string;         (* addressConfig.AddressName *)
  b_host : string;         (* addressConfig.Hostname *)
  b_port : N;              (* addressConfig.Port; 0 = unassigned *)
  b_pref : N               (* BindConfig.PreferredPort; 0 = none *)
}.

(** [BindConfig]s are used through pointers: a heap from pointer to contents. The same pointer may
    occur more than once in a list. *)
Notation heap := (gmap nat bind).

(** Reading through a pointer.  A pointer outside the heap (Go: nil dereference) reads as
    unassigned; theorems only speak about lists of pointers in the heap. *)
Definition nobind : bind := Bind "" "" "" 0 0.
Definition deref (h : heap) (p : nat) : bind := default nobind (h !! p).
Definition port_of (h : heap) (p : nat) : N := b_port (deref h p).
Definition pref_of (h : heap) (p : nat) : N := b_pref (deref h p).
Definition set_port (h : heap) (p : nat) (v : N) : heap :=
  alter (fun b => Bind (b_key b) (b_addr b) (b_host b) v (b_pref b)) p h.
Definition set_pref (h : heap) (p : nat) (v : N) : heap :=
  alter (fun b => Bind (b_key b) (b_addr b) (b_host b) (b_port b) v) p h.

(** uint16 increment, portassignment.go:78. *)
Definition next_port (c : N) : N := ((c + 1) mod 65536)%N.

(** portassignment.go:53-64: first loop.  Returns the map from port to bind, and the two lists, or
    the two colliding pointers. *)
Fixpoint collect (h : heap) (binds : list nat) (ports : gmap N nat) (pre asg : list nat)
    : (gmap N nat * list nat * list nat) + (nat * nat) :=
  match binds with
  | [] => inl (ports, pre, asg)
  | b :: rest =>
      if bool_decide (port_of h b = 0%N) then collect h rest ports pre (asg ++ [b])
      else match ports !! port_of h b with
           | Some other => inr (other, b)
           | None => collect h rest (<[port_of h b := b]> ports) (pre ++ [b]) asg
           end
  end.

(** portassignment.go:72-79: inner loop, unbounded in Go.  [None]: out of fuel. *)
Fixpoint search (fuel : nat) (ports : gmap N nat) (c : N) : option N :=
  match fuel with
  | O => None
  | S f => match ports !! c with
           | None => Some c
           | Some _ => search f ports (next_port c)
           end
  end.

(** portassignment.go:68-71. *)
Definition start_port (h : heap) (b : nat) : N :=
  if bool_decide (pref_of h b = 0%N) then 2000%N else pref_of h b.

(** portassignment.go:67-80: second loop. *)
Fixpoint assign_loop (fuel : nat) (h : heap) (ports : gmap N nat) (asg : list nat)
    : option (heap * gmap N nat) :=
  match asg with
  | [] => Some (h, ports)
  | b :: rest =>
      match search fuel ports (start_port h b) with
      | Some c => assign_loop fuel (set_port h b c) (<[c := b]> ports) rest
      | None => None
      end
  end.

(** portassignment.go:83-85: third loop. *)
Definition set_prefs (h : heap) (binds : list nat) : heap :=
  fold_left (fun h b => set_pref h b (port_of h b)) binds h.

Inductive assign_result :=
| APorts (h : heap) (preassigned assigned : list nat)   (* err == nil *)
| AConflict (first second : nat)                       (* err != nil; the heap is untouched *)
| ADiverge.                                            (* still searching when fuel ran out *)

(** portassignment.go:49-87 [AssignPorts]. *)
Definition assign_ports (fuel : nat) (h : heap) (binds : list nat) : assign_result :=
  match collect h binds ∅ [] [] with
  | inr (x, y) => AConflict x y
  | inl (ports, pre, asg) =>
      match assign_loop fuel h ports asg with
      | Some (h', _) => APorts (set_prefs h' binds) pre asg
      | None => ADiverge
      end
  end.

(** portassignment.go:32-37 [Clear]. *)
Definition clear (h : heap) (binds : list nat) : heap :=
  fold_left (fun h b => alter (fun b => Bind (b_key b) (b_addr b) "" 0%N (b_pref b)) b h) binds h.
