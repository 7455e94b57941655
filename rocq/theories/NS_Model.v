(** * Model of building the IR: blueprint/pkg/wiring/{namespace,application}.go

    Build functions and deferred functions are any code at all that uses the namespaces.  The model is a
    state machine driven by labels: a label says what the code that is currently running does next (get a
    node, derive a namespace, defer a function, return, ...). *)
From stdpp Require Export strings gmap list.
Set Default Proof Using "Type".

(** An IR node: its identity, its Name(), whether it is an ir.IRMetadata, and its type. *)
Record node := Node { nd_id : nat; nd_name : string; nd_meta : bool; nd_type : nat }.
Global Instance node_eq_dec : EqDecision node.
Proof. solve_decision. Defined.

(** wiring/wiring.go:82-88: a definition (made by Define; getting one that only has properties panics in
    namespace.go:322-330, which is not modelled). *)
Record wdef := WDef { w_name : string; w_type : nat; w_proxy : bool }.
(** namespace.go:146-152: what GetDef gives for a name, aliases resolved. *)
Definition wiring := string → option wdef.

(** namespace.go:95-110.  [n_seen]: [Some None] is a nil node cached under an alias.  The handler is what
    it accepts; its AddNode and AddEdge are recorded in the trace. *)
Record nspace := Nspace {
  n_parent : option nat;
  n_accepts : nat → bool;
  n_seen : gmap string (option node);
  n_added : gset string;
  n_children : gmap string nat }.

(** A call of [get] waiting for another one: 173-182 and 185-207. *)
Inductive waiter :=
| WAlias (n : nat) (name : string)
| WOuter (n : nat) (name : string) (edge : bool) (proxy : bool).
(** The code that is running, innermost first: the build function of a node, with the calls waiting for it
    (innermost first); a deferred function; the deferred function that BuildApplicationIR makes for a
    requested node, waiting for its Get (application.go:40-44). *)
Inductive frame :=
| FBuild (n : nat) (name : string) (proxy : bool) (ws : list waiter)
| FDeferred (id : nat)
| FRequest (id : nat).

Inductive event :=
| EBuild (n : nat) (name : string)                 (* a build function is called *)
| EBuilt (n : nat) (name : string) (v : node)      (* ... and returns a node *)
| EFailed (n : nat) (name : string)                (* ... or an error *)
| EGot (n : nat) (name : string) (r : option node) (* a Get or Instantiate returns a node or an error *)
| ENode (n : nat) (name : string) (v : node)       (* Handler.AddNode *)
| EEdge (n : nat) (name : string) (v : node)       (* Handler.AddEdge *)
| EDefer (id : nat) (front : bool)
| ERun (id : nat)                                  (* a deferred function is called *)
| EEnd (id : nat) (ok : bool).                     (* ... and returns *)

Inductive dkind := DRequest (name : string) | DUser.
Inductive status := Going | Done | Failed | Panicked.
Record state := State {
  nss : list nspace;
  stack : list frame;
  queue : list (nat * dkind);      (* Deferred of the root, 258-272 *)
  next : nat;
  status_of : status;
  trace : list event }.            (* oldest first *)

Definition emit (es : list event) (s : state) : state := State (nss s) (stack s) (queue s) (next s) (status_of s) (trace s ++ es).
Definition set_stack (st : list frame) (s : state) : state := State (nss s) st (queue s) (next s) (status_of s) (trace s).
Definition set_status (x : status) (s : state) : state := State (nss s) (stack s) (queue s) (next s) x (trace s).
Definition alter_ns (f : nspace → nspace) (n : nat) (s : state) : state := State (alter f n (nss s)) (stack s) (queue s) (next s) (status_of s) (trace s).
Definition set_seen (name : string) (r : option node) (x : nspace) : nspace := Nspace (n_parent x) (n_accepts x) (<[name := r]> (n_seen x)) (n_added x) (n_children x).
Definition mark_added (k : string) (x : nspace) : nspace := Nspace (n_parent x) (n_accepts x) (n_seen x) ({[k]} ∪ n_added x) (n_children x).
Definition add_child (c : string) (i : nat) (x : nspace) : nspace := Nspace (n_parent x) (n_accepts x) (n_seen x) (n_added x) (<[c := i]> (n_children x)).
Definition is_added (s : state) (n : nat) (k : string) : bool := match nss s !! n with Some x => bool_decide (k ∈ n_added x) | None => false end.

Section with_wiring.
  Context (getdef : wiring).

  (** 154-213 without the building: where a call of [get] leads. *)
  Inductive outcome :=
  | OHit (n : nat) (name : string) (v : node) (ws : list waiter)         (* 156-158 *)
  | ONil                                                                 (* 156-158 with a nil node: panic *)
  | OError (n : nat) (name : string) (ws : list waiter)                  (* 161-164, 186-188 *)
  | OBuild (n : nat) (name : string) (proxy : bool) (ws : list waiter).  (* 216 *)
  Fixpoint resolve (fuel : nat) (l : list nspace) (n : nat) (name : string) (edge : bool) (ws : list waiter) : outcome :=
    match fuel with
    | 0 => OError n name ws
    | S fuel =>
        match l !! n with
        | None => OError n name ws
        | Some x =>
            match n_seen x !! name with
            | Some (Some v) => OHit n name v ws
            | Some None => ONil
            | None =>
                match getdef name with
                | None => OError n name ws
                | Some d =>
                    if bool_decide (w_name d ≠ name) then resolve fuel l n (w_name d) edge (WAlias n name :: ws)
                    else if n_accepts x (w_type d) then OBuild n name (w_proxy d) ws
                    else match n_parent x with
                         | None => OError n name ws
                         | Some p => resolve fuel l p name edge (WOuter n name edge (w_proxy d) :: ws)
                         end
                end
            end
        end
    end.
  (** Parents are older than their children, so this is fuel enough. *)
  Definition fuel_for (n : nat) : nat := 2 * S n.

  (** What a waiting call does with the answer: 176-181, 197-206. *)
  Definition resume (r : option node) (s : state) (w : waiter) : state :=
    match w with
    | WAlias n name => emit [EGot n name r] (alter_ns (set_seen name r) n s)
    | WOuter n name edge proxy =>
        match r with
        | None => emit [EGot n name None] s
        | Some v =>
            let s := if is_added s n (nd_name v) then s
                     else alter_ns (mark_added (nd_name v)) n
                            (if negb (nd_meta v) && edge && negb proxy then emit [EEdge n name v] s else s) in
            emit [EGot n name (Some v)] (alter_ns (set_seen name (Some v)) n s)
        end
    end.
  (** The answer reaches running code: of a build function or a deferred function, which goes on, or that
      of a requested node, which ends (application.go:40-44, 48-54). *)
  Definition deliver (r : option node) (s : state) : state :=
    match stack s with
    | FRequest id :: st =>
        let ok := match r with Some _ => true | None => false end in
        emit [EEnd id ok] (set_status (if ok then Going else Failed) (set_stack st s))
    | _ => s
    end.
  Definition answer (r : option node) (ws : list waiter) (s : state) : state := deliver r (foldl (resume r) s ws).

  Definition call (s : state) (n : nat) (name : string) (edge : bool) : state :=
    match resolve (fuel_for n) (nss s) n name edge [] with
    | OHit m k v ws => answer (Some v) ws (emit [EGot m k (Some v)] s)
    | ONil => set_status Panicked s
    | OError m k ws => answer None ws (emit [EGot m k None] s)
    | OBuild m k proxy ws => emit [EBuild m k] (set_stack (FBuild m k proxy ws :: stack s) s)
    end.
  (** 217-231. *)
  Definition finish_build (n : nat) (name : string) (proxy : bool) (ws : list waiter) (r : option node) (s : state) : state :=
    match r with
    | None => answer None ws (emit [EFailed n name; EGot n name None] s)
    | Some v =>
        let s := emit [EBuilt n name v] s in
        let s := if is_added s n (nd_name v) then s
                 else alter_ns (mark_added (nd_name v)) n (if proxy then s else emit [ENode n name v] s) in
        answer (Some v) ws (emit [EGot n name (Some v)] (alter_ns (set_seen name (Some v)) n s))
    end.
  (** 258-272. *)
  Definition defer (front : bool) (k : dkind) (s : state) : state :=
    State (nss s) (stack s) (if front then (next s, k) :: queue s else queue s ++ [(next s, k)]) (S (next s)) (status_of s)
          (trace s ++ [EDefer (next s) front]).

  Inductive label :=
  | LGet (n : nat) (name : string) (edge : bool)        (* Get, or Instantiate if not [edge] *)
  | LPut (n : nat) (name : string) (v : node)
  | LDerive (n : nat) (c : string) (accepts : nat → bool)
  | LDefer (front : bool)
  | LReturn (r : option node)                           (* the running build function returns *)
  | LEnd (ok : bool)                                    (* the running deferred function returns *)
  | LNext.                                              (* the loop of application.go:48-54 *)

  Definition user_code (s : state) : bool :=
    match stack s with FBuild _ _ _ _ :: _ | FDeferred _ :: _ => true | _ => false end.
  Definition step (s : state) (l : label) : option state :=
    match status_of s with
    | Going =>
        match l with
        | LGet n name edge => if user_code s && bool_decide (n < length (nss s)) then Some (call s n name edge) else None
        | LPut n name v =>                                                                    (* 235-255 *)
            if user_code s then
              match nss s !! n with
              | None => None
              | Some x =>
                  let s1 := alter_ns (set_seen name (Some v)) n s in
                  if n_accepts x (nd_type v) then Some (emit [ENode n name v] s1)
                  else match n_parent x with Some _ => Some s1 | None => Some (set_status Panicked s1) end
              end
            else None
        | LDerive n c acc =>                                                                  (* 293-311 *)
            if user_code s then
              match nss s !! n with
              | None => None
              | Some x =>
                  if bool_decide (is_Some (n_children x !! c)) then Some s
                  else Some (State (alter (add_child c (length (nss s))) n (nss s) ++ [Nspace (Some n) acc ∅ ∅ ∅])
                                   (stack s) (queue s) (next s) (status_of s) (trace s))
              end
            else None
        | LDefer front => if user_code s then Some (defer front DUser s) else None
        | LReturn r =>
            match stack s with
            | FBuild n name proxy ws :: st => Some (finish_build n name proxy ws r (set_stack st s))
            | _ => None
            end
        | LEnd ok =>
            match stack s with
            | FDeferred id :: st => Some (emit [EEnd id ok] (set_status (if ok then Going else Failed) (set_stack st s)))
            | _ => None
            end
        | LNext =>
            match stack s, queue s with
            | [], [] => Some (set_status Done s)
            | [], (id, k) :: q =>
                let s1 := State (nss s) [match k with DUser => FDeferred id | DRequest _ => FRequest id end] q (next s) (status_of s) (trace s ++ [ERun id]) in
                match k with DUser => Some s1 | DRequest name => Some (call s1 0 name true) end
            | _, _ => None
            end
        end
    | _ => None
    end.
  (** application.go:18-45: the root namespace accepts everything; every requested node is deferred to the
      front. *)
  Definition root : nspace := Nspace None (λ _, true) ∅ ∅ ∅.
  Definition init (reqs : list string) : state :=
    foldl (λ s name, defer true (DRequest name) s) (State [root] [] [] 0 Going []) reqs.
  Fixpoint run (s : state) (ls : list label) : option state :=
    match ls with
    | [] => Some s
    | l :: ls => match step s l with Some s' => run s' ls | None => None end
    end.
End with_wiring.
