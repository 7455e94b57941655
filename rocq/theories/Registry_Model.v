(** * Model of the client registry, runtime/core/registry/registry.go

    Build functions are numbered; what the k-th invocation of one returns is an oracle, quantified in
    the theorems.  Logging is not modelled. *)
From stdpp Require Export prelude list gmap strings.
Set Default Proof Using "Type".

(** What Get returns: the client built, or one of three errors. *)
Inductive rresult :=
| RClient (v : nat)
| RBuildError (e : nat)
| RNoneRegistered
| RUnknownDefault (name : string)
| RZero.   (* the zero client with a nil error; see the concurrent model *)

Record registry := Registry {
  r_default : string;
  r_registered : gmap string nat;      (* name -> build function *)
  r_built : option rresult;            (* isBuilt, with built/buildError *)
  r_calls : list nat }.                (* build functions invoked so far *)

(** registry.go:27-33 *)
Definition new_registry : registry := Registry "" ∅ None [].

Inductive rop := OSetDefault (name : string) | ORegister (name : string) (f : nat) | OGet.

Definition oracle := nat → nat → rresult.  (* build function, number of earlier invocations *)

(** registry.go:50-70 *)
Definition rget (o : oracle) (r : registry) : registry * rresult :=
  match r_built r with
  | Some res => (r, res)
  | None =>
      if bool_decide (r_registered r = ∅) then
        (Registry (r_default r) (r_registered r) (Some RNoneRegistered) (r_calls r), RNoneRegistered)
      else match r_registered r !! r_default r with
      | None =>
          let res := RUnknownDefault (r_default r) in
          (Registry (r_default r) (r_registered r) (Some res) (r_calls r), res)
      | Some f =>
          let res := o f (length (r_calls r)) in
          (Registry (r_default r) (r_registered r) (Some res) (r_calls r ++ [f]), res)
      end
  end.

(** registry.go:35-45 *)
Definition rexec (o : oracle) (r : registry) (op : rop) : registry * option rresult :=
  match op with
  | OSetDefault n => (Registry n (r_registered r) (r_built r) (r_calls r), None)
  | ORegister n f =>
      (Registry (if bool_decide (r_registered r = ∅) then n else r_default r)
                (<[n := f]> (r_registered r)) (r_built r) (r_calls r), None)
  | OGet => let '(r', res) := rget o r in (r', Some res)
  end.

(** A history, with what each Get returned. *)
Fixpoint rhist (o : oracle) (r : registry) (ops : list rop) : registry * list rresult :=
  match ops with
  | [] => (r, [])
  | op :: ops =>
      let '(r1, res) := rexec o r op in
      let '(r2, out) := rhist o r1 ops in
      (r2, match res with Some x => x :: out | None => out end)
  end.

(** ** Concurrent Get

    registry.go:51-69 without synchronisation, on a registry whose selected build function always
    yields client [v].  Each Get: read isBuilt; set isBuilt; build; store the result. *)
Inductive gphase := GStart | GSet | GBuild | GStore (v : nat) | GDone (res : rresult).
Record cget := CGet { cg_isbuilt : bool; cg_built : option nat; cg_threads : list gphase }.
Definition cgstep (v : nat) (s : cget) (t : nat) : cget :=
  match cg_threads s !! t with
  | Some GStart =>
      if cg_isbuilt s
      then CGet true (cg_built s) (<[t := GDone (match cg_built s with Some v => RClient v | None => RZero end)]> (cg_threads s))
      else CGet false (cg_built s) (<[t := GSet]> (cg_threads s))
  | Some GSet => CGet true (cg_built s) (<[t := GBuild]> (cg_threads s))
  | Some GBuild => CGet (cg_isbuilt s) (cg_built s) (<[t := GStore v]> (cg_threads s))
  | Some (GStore v) => CGet (cg_isbuilt s) (Some v) (<[t := GDone (RClient v)]> (cg_threads s))
  | _ => s
  end.
Definition cgrun (v : nat) (n : nat) (sched : list nat) : cget :=
  fold_left (cgstep v) sched (CGet false None (replicate n GStart)).
