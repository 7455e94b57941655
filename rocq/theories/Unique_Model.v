(** * Model of the uniqueness check: blueprint/pkg/coreplugins/pointer/visibility.go (what the build functions
    do), pointer/pointer.go InstantiateDst and namespaceutil/namespace.go instantiateNamespaceNodes

    The build functions that RequireUniqueness defines run within the model of building the IR (NS_Model):
    all other code is still any code at all. *)
From Verif Require Export NS_Model.
Set Default Proof Using "Type".

(** Where a running check is: it has asked for the metadata node, or for the node that must be unique,
    having got metadata node [v].  A check without an entry has just started. *)
Inductive pc := Asked | Building (v : node).
(** [pcs]: of the running checks, by how many frames are below them.  [cells]: the [node] field of the
    metadata nodes that were made, by identity (visibility.go:10-16; the [namespace] field is only used in
    an error message). *)
Record ustate := U { base : state; pcs : gmap nat pc; cells : gmap nat (option node) }.

(** What the call that the running code made last has returned. *)
Definition result (s : state) : option node := match last (trace s) with Some (EGot _ _ r) => r | _ => None end.

Definition is_get (l : label) (n : nat) (k : string) : bool :=
  match l with LGet n' k' e => bool_decide (n' = n ∧ k' = k ∧ e = true) | _ => false end.
Definition is_return (l : label) (r : option node) : bool :=
  match l with LReturn r' => bool_decide (r' = r) | _ => false end.

Section with_wiring.
  (** The wiring; the names of the check, of the metadata and of the node (visibility.go:36, 48, 57). *)
  Context (getdef : wiring) (check md name : string).

  (** What the running code may do next and what it does to the state besides. *)
  Definition control (u : ustate) (l : label) : option (gmap nat pc * gmap nat (option node)) :=
    match stack (base u) with
    | FBuild n k _ _ :: st =>
        let i := length st in
        if bool_decide (k = check) then
          let ret r c := if is_return l r then Some (delete i (pcs u), c) else None in
          match pcs u !! i with
          | None => if is_get l n md then Some (<[i := Asked]> (pcs u), cells u) else None              (* 60 *)
          | Some Asked =>
              match result (base u) with
              | None => ret None (cells u)                                                             (* 61 *)
              | Some v =>
                  match cells u !! nd_id v with
                  | Some None => if is_get l n name then Some (<[i := Building v]> (pcs u), cells u) else None   (* 68-69 *)
                  | _ => ret None (cells u)                        (* 64-66; not a metadata node: 60-62 *)
                  end
              end
          | Some (Building v) =>
              match result (base u) with
              | None => ret None (cells u)
              | Some w => ret (Some w) (<[nd_id v := Some w]> (cells u))                               (* 69-70 *)
              end
          end
        else if bool_decide (k = md) then
          match l with
          | LReturn (Some v) => match cells u !! nd_id v with None => Some (pcs u, <[nd_id v := None]> (cells u)) | Some _ => None end   (* 49-55: a new node *)
          | _ => None
          end
        else Some (pcs u, cells u)
    | _ => Some (pcs u, cells u)
    end.
  Definition ustep (u : ustate) (l : label) : option ustate :=
    match control u l, step getdef (base u) l with
    | Some (p, c), Some s => Some (U s p c)
    | _, _ => None
    end.
  Fixpoint urun (u : ustate) (ls : list label) : option ustate :=
    match ls with
    | [] => Some u
    | l :: ls => match ustep u l with Some u' => urun u' ls | None => None end
    end.
  Definition uinit (reqs : list string) : ustate := U (init reqs) ∅ ∅.
End with_wiring.

(** ** Functions that are deferred *)
(** The calls such a function makes, and what it does with the answers. *)
Inductive prog :=
| PEnd (ok : bool)
| PGet (name : string) (edge : bool) (k : option node → prog)
| PDest (a : node) (k : option node → prog).     (* address.GetDestination *)

Section deferred.
  (** What nodes are addresses (address.Node). *)
  Context (is_addr : node → bool).
  (** pointer.go:221-256 [InstantiateDst] with the pointer's interface node and first server-side modifier.
      Line 246 returns [err], which is nil there. *)
  Definition instantiate_dst (iface first : string) : prog :=
    PGet iface true (λ r, match r with
      | None => PEnd false                                                   (* 226-229 *)
      | Some a =>
          if is_addr a then PDest a (λ d, match d with
            | Some _ => PEnd true                                            (* 240-242 *)
            | None => PGet first false (λ r, match r with
                | None => PEnd true                                          (* 246-248 *)
                | Some _ => PDest a (λ d, match d with None => PEnd false | Some _ => PEnd true end)   (* 252-255 *)
                end)
            end)
          else PEnd true                                                     (* 235-237 *)
      end).
End deferred.
(** namespaceutil/namespace.go:128-135: the loop of [instantiateNamespaceNodes]. *)
Fixpoint instantiate_children (children : list string) : prog :=
  match children with
  | [] => PEnd true
  | c :: cs => PGet c true (λ r, match r with None => PEnd false | Some _ => instantiate_children cs end)
  end.
