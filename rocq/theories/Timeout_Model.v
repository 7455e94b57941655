(** * Model of the generated timeout wrapper (plugins/timeouts/codegen.go:62-85) and of the fault and
      latency injectors (plugins/faultinjector/{delay,probabilistic}/codegen.go, plugins/latency/codegen.go) *)
From Verif Require Export Retry_Model.
Set Default Proof Using "Type".

Section timeout.
  Context {V E : Type}.

  (** The goroutine started at codegen.go:70-73: running the call, then two assignments (Go assigns
      the results left to right), then the send on the unbuffered channel. [GWrote] = value stored,
      error not yet. *)
  Inductive gphase := GRun | GWrote | GSend | GDone.

  (** The caller, codegen.go:76-82: waiting in the select; in the ctx.Done() case before storing the
      error; after storing it; having read the first result for the return; returned ([timedout]
      tells which case).  Results are read from the shared named variables one after the other. *)
  Inductive mphase :=
  | MSelect
  | MFired
  | MReading (timedout : bool)
  | MRead (timedout : bool) (v : V)
  | MRet (timedout : bool) (v : V) (e : option E).

  (** Shared state: the named results, both phases, and whether the deadline has passed (or the
      caller's own context was cancelled). *)
  Record tstate := TState { ts_val : V; ts_err : option E; ts_g : gphase; ts_m : mphase; ts_fired : bool }.

  Definition t_init (zero : V) : tstate := TState zero None GRun MSelect false.

  (** Moves of the scheduler: time passes, the goroutine moves, the caller takes the ctx.Done() case
      or its next step, the channel rendezvous. *)
  Inductive tmove := TFire | TGo | TMain | TSync.

  Context (r : result V E) (tmo : E).

  Definition t_step (s : tstate) (mv : tmove) : tstate :=
    match mv with
    | TFire => TState (ts_val s) (ts_err s) (ts_g s) (ts_m s) true
    | TGo =>
        match ts_g s with
        | GRun => TState (rval r) (ts_err s) GWrote (ts_m s) (ts_fired s)
        | GWrote => TState (ts_val s) (rerr r) GSend (ts_m s) (ts_fired s)
        | GSend | GDone => s
        end
    | TSync =>
        match ts_g s, ts_m s with
        | GSend, MSelect => TState (ts_val s) (ts_err s) GDone (MReading false) (ts_fired s)
        | _, _ => s
        end
    | TMain =>
        match ts_m s with
        | MSelect => if ts_fired s then TState (ts_val s) (ts_err s) (ts_g s) MFired true else s
        | MFired => TState (ts_val s) (Some tmo) (ts_g s) (MReading true) (ts_fired s)
        | MReading b => TState (ts_val s) (ts_err s) (ts_g s) (MRead b (ts_val s)) (ts_fired s)
        | MRead b v => TState (ts_val s) (ts_err s) (ts_g s) (MRet b v (ts_err s)) (ts_fired s)
        | MRet _ _ _ => s
        end
    end.

  Definition t_run (s : tstate) (sched : list tmove) : tstate := fold_left t_step sched s.
End timeout.
Arguments tstate : clear implicits.
Arguments mphase : clear implicits.

(** ** Fault injectors.  A generated method either panics, or sleeps and/or returns. *)
Section fault.
  Context {V E : Type}.
  Inductive fresult := FPanic | FRet (sleep : Z) (called : bool) (r : result V E).

  (** math/rand Int63n(n): panics for n <= 0, otherwise the draw [rnd n]. *)
  Definition int63n (rnd : Z → Z) (n : Z) : option Z := if (n <=? 0)%Z then None else Some (rnd n).

  (** faultinjector/delay/codegen.go:74-78: milliseconds to nanoseconds in int64. *)
  Definition delay_inject (max_delay : Z) (rnd : Z → Z) (service : result V E) : fresult :=
    match int63n rnd (wrap64 (max_delay + 1)) with
    | None => FPanic
    | Some val => FRet (wrap64 (val * 1000000)) true service
    end.

  (** faultinjector/probabilistic/codegen.go:74-81; [draw] is Int31n(100). *)
  Definition prob_inject (probability draw : Z) (zero : V) (ferr : E) (service : result V E) : fresult :=
    if (draw <? probability)%Z then FRet 0 false (Result zero (Some ferr)) else FRet 0 true service.

  (** latency/codegen.go:65-68. *)
  Definition latency_inject (latency : Z) (service : result V E) : fresult := FRet latency true service.
End fault.
Arguments fresult : clear implicits.
