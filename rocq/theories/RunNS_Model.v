(** * Model of run-time namespaces, runtime/plugins/golang/namespace.go

    Namespaces of a process, threads calling Get on them, and the goroutines running runnable nodes.  A
    build function is any code at all: it may Get any names from any namespaces, and then returns a node or
    an error.  The state machine below therefore leaves to the labels what build functions do and in what
    order threads and goroutines proceed. *)
From stdpp Require Export strings gmap list.
Set Default Proof Using "Type".

(** 74-94: a namespace.  [wg] is the counter of its wait group, [cancelled] tells that its own cancel
    function has been called. *)
Record ns := Ns {
  parent : option nat;
  defs : gset string;            (* keys of buildFuncs *)
  built : gmap string nat;       (* instances, by identity *)
  wg : Z;
  cancelled : bool }.

(** A goroutine running a node: 392-412.  It runs, then signals its own namespace, then the parent. *)
Inductive phase := Running | OwnDone | Finished.
Record task := Task { t_ns : nat; t_name : string; t_phase : phase }.

(** Threads are stacks of nodes being built (the innermost first). *)
Record state := State { nss : list ns; threads : gmap nat (list (nat * string)); tasks : list task }.

Inductive label :=
| LNew (p : option nat) (ds : gset string)             (* Build, BuildWithParent: 225-230, 271-277 *)
| LGet (t : nat) (n : nat) (name : string)             (* thread t calls Get *)
| LReturn (t : nat) (r : option (nat * bool))          (* the innermost build function of t returns a node
                                                          (runnable or not), or an error *)
| LExit (i : nat) (err : bool)                         (* Run of task i returns *)
| LParentDone (i : nat)                                (* task i signals the parent *)
| LShutdown (n : nat).                                 (* 429-434, and the interrupt handler 241-248 *)
(** What can be observed of a step. *)
Inductive obs :=
| OHit (n : nat) (name : string) (v : nat)             (* Get returns an already built node *)
| OStart (n : nat) (name : string)                     (* the build function of a node is called *)
| OUnknown (name : string)                             (* Get fails: nobody defines the name *)
| OBuilt (n : nat) (name : string) (v : nat) (run : bool)
| OFailed (n : nat) (name : string)
| OOther.

(** 372-418: the namespace, from [n] outwards, that has built the name or can build it.  A parent is
    always older than its children, so [S n] is fuel enough. *)
Fixpoint resolve (fuel : nat) (nss : list ns) (n : nat) (name : string) : option (nat * option nat) :=
  match fuel with
  | 0 => None
  | S fuel =>
      match nss !! n with
      | None => None
      | Some s =>
          match built s !! name with
          | Some v => Some (n, Some v)
          | None =>
              if bool_decide (name ∈ defs s) then Some (n, None)
              else match parent s with Some p => resolve fuel nss p name | None => None end
          end
      end
  end.

Definition set_built (name : string) (v : nat) (s : ns) : ns := Ns (parent s) (defs s) (<[name := v]> (built s)) (wg s) (cancelled s).
Definition add_wg (k : Z) (s : ns) : ns := Ns (parent s) (defs s) (built s) (wg s + k) (cancelled s).
Definition set_cancelled (s : ns) : ns := Ns (parent s) (defs s) (built s) (wg s) true.
Definition parent_of (nss : list ns) (n : nat) : option nat := match nss !! n with Some s => parent s | None => None end.
Definition add_parent_wg (k : Z) (n : nat) (nss : list ns) : list ns :=
  match parent_of nss n with Some p => alter (add_wg k) p nss | None => nss end.

Definition stack (s : state) (t : nat) : list (nat * string) := default [] (threads s !! t).
Definition set_stack (t : nat) (st : list (nat * string)) (s : state) : state := State (nss s) (<[t := st]> (threads s)) (tasks s).
Definition set_phase (p : phase) (t : task) : task := Task (t_ns t) (t_name t) p.

(** One step; [None] if the label does not apply. *)
Definition step (s : state) (l : label) : option (state * obs) :=
  match l with
  | LNew p ds =>
      if match p with Some i => bool_decide (i < length (nss s)) | None => true end
      then Some (State (nss s ++ [Ns p ds ∅ 0 false]) (threads s) (tasks s), OOther) else None
  | LGet t n name =>
      if bool_decide (n < length (nss s)) then
        match resolve (S n) (nss s) n name with
        | Some (j, Some v) => Some (s, OHit j name v)                                     (* 373-375 *)
        | Some (j, None) => Some (set_stack t ((j, name) :: stack s t) s, OStart j name)  (* 376-377 *)
        | None => Some (s, OUnknown name)                                                 (* 417 *)
        end
      else None
  | LReturn t r =>
      match stack s t with
      | [] => None
      | (j, name) :: st =>
          match r with
          | None => Some (set_stack t st s, OFailed j name)                               (* 378-380 *)
          | Some (v, run) =>                                                              (* 389-413 *)
              let nss1 := alter (set_built name v) j (nss s) in
              if run then
                Some (State (add_parent_wg 1 j (alter (add_wg 1) j nss1)) (<[t := st]> (threads s))
                            (tasks s ++ [Task j name Running]), OBuilt j name v true)
              else Some (State nss1 (<[t := st]> (threads s)) (tasks s), OBuilt j name v false)
          end
      end
  | LExit i err =>                                                                        (* 398-407 *)
      match tasks s !! i with
      | Some tk =>
          match t_phase tk with
          | Running =>
              let nss1 := if err then alter set_cancelled (t_ns tk) (nss s) else nss s in
              Some (State (alter (add_wg (-1)) (t_ns tk) nss1) (threads s) (alter (set_phase OwnDone) i (tasks s)), OOther)
          | _ => None
          end
      | None => None
      end
  | LParentDone i =>                                                                      (* 408-410 *)
      match tasks s !! i with
      | Some tk =>
          match t_phase tk with
          | OwnDone => Some (State (add_parent_wg (-1) (t_ns tk) (nss s)) (threads s) (alter (set_phase Finished) i (tasks s)), OOther)
          | _ => None
          end
      | None => None
      end
  | LShutdown n => if bool_decide (n < length (nss s)) then Some (State (alter set_cancelled n (nss s)) (threads s) (tasks s), OOther) else None
  end.
Definition init : state := State [] ∅ [].
Fixpoint run (s : state) (ls : list label) : option (state * list obs) :=
  match ls with
  | [] => Some (s, [])
  | l :: ls =>
      match step s l with
      | Some (s', o) => match run s' ls with Some (s'', os) => Some (s'', o :: os) | None => None end
      | None => None
      end
  end.
(** A context is done if its own or an outer namespace's cancel function was called (227, 275). *)
Fixpoint ctx_done (fuel : nat) (nss : list ns) (n : nat) : bool :=
  match fuel with
  | 0 => false
  | S fuel =>
      match nss !! n with
      | None => false
      | Some s => cancelled s || match parent s with Some p => ctx_done fuel nss p | None => false end
      end
  end.
(** 437-439: Await returns when the counter is zero. *)
Definition await_returns (s : state) (n : nat) : bool := match nss s !! n with Some x => bool_decide (wg x = 0%Z) | None => false end.
