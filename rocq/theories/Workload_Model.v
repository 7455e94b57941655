(** * Model of the workload generator, runtime/core/workload/{workload,engine}.go

    Request functions are numbered. *)
From stdpp Require Export prelude list gmap.
From Verif Require Import Retry_Model.
Set Default Proof Using "Type".
Open Scope Z_scope.

(** workload.go:29-33; the name is only informative and omitted. *)
Record api := Api { a_fn : nat; a_prop : Z }.

(** workload.go:62-71; the accumulator is a 64-bit int. *)
Definition is_valid (apis : list api) : bool :=
  bool_decide (fold_left (λ total a, wrap64 (total + a_prop a)) apis 0 = 100).

(** engine.go:45-49: the inner loop, filling slots [last], [last+1], ... *)
Definition fill (m : gmap Z nat) (last : Z) (a : api) : gmap Z nat :=
  fold_left (λ m i, <[last + Z.of_nat i := a_fn a]> m) (seq 0 (Z.to_nat (a_prop a))) m.
(** engine.go:40-52 after the sort; [i] ends at max(0, proportion). *)
Fixpoint fill_all (m : gmap Z nat) (last : Z) (apis : list api) : gmap Z nat :=
  match apis with
  | [] => m
  | a :: apis => fill_all (fill m last a) (last + Z.of_nat (Z.to_nat (a_prop a))) apis
  end.
(** engine.go:40-52.  sort.Slice is not stable, so the sorted order of the APIs is an argument. *)
Definition init_prop_map (sorted : list api) : gmap Z nat := fill_all ∅ 0 sorted.

(** engine.go:93-94: a tick draws n in [0, 100) and calls prop_map[n]; None is a nil function. *)
Definition dispatch (m : gmap Z nat) (n : Z) : option nat := m !! n.

Close Scope Z_scope.

(** ** RunOpenLoop, engine.go:55-119

    Any number of request goroutines, the dispatcher, the statistics collector and the caller run
    concurrently.  Each channel and WaitGroup operation is a step.  When and how often the dispatcher
    ticks, which function it calls and what that function returns are up to the schedule. *)
Inductive reqphase :=
| QRunning            (* engine.go:98: inside fn *)
| QSending (st : nat) (* :99: about to send its statistic *)
| QSent (st : nat)    (* :97: about to call wg.Done *)
| QDone (st : nat).
Inductive mainphase :=
| MSleep      (* :104-109 *)
| MStop       (* :110 *)
| MWait       (* :112 *)
| MClose      (* :114 *)
| MWaitDone   (* :115 *)
| MReturned.

Record eng := Eng {
  e_cap : nat;                 (* capacity of stat_channel: TargetTput *)
  e_chan : list nat;
  e_closed : bool;
  e_stats : list nat;          (* e.Stats *)
  e_collector : bool;          (* the collector is still running (done not closed) *)
  e_dispatcher : bool;         (* the dispatcher is still running *)
  e_wg : nat;
  e_reqs : list reqphase;      (* one entry per request issued *)
  e_main : mainphase;
  e_panic : bool }.            (* a send on a closed channel *)

(** engine.go:55-101; e.Stats may hold statistics of an earlier run. *)
Definition start_engine (cap : nat) (stats : list nat) : eng :=
  Eng cap [] false stats true true 0 [] MSleep false.

Inductive emove :=
| ETick                       (* dispatcher: issue one request *)
| EReturn (r : nat) (st : nat)(* request r's function returns statistic st *)
| ESend (r : nat) | EDone (r : nat)
| ECollect                    (* collector: next round of its range loop *)
| EMain.                      (* the caller's next step *)

Definition set_req (e : eng) (r : nat) (ph : reqphase) : eng :=
  Eng (e_cap e) (e_chan e) (e_closed e) (e_stats e) (e_collector e) (e_dispatcher e) (e_wg e)
      (<[r := ph]> (e_reqs e)) (e_main e) (e_panic e).
Definition set_main (e : eng) (ph : mainphase) : eng :=
  Eng (e_cap e) (e_chan e) (e_closed e) (e_stats e) (e_collector e) (e_dispatcher e) (e_wg e) (e_reqs e) ph (e_panic e).

Definition estep (e : eng) (m : emove) : eng :=
  match m with
  | ETick =>
      if e_dispatcher e
      then Eng (e_cap e) (e_chan e) (e_closed e) (e_stats e) (e_collector e) true (S (e_wg e))
               (e_reqs e ++ [QRunning]) (e_main e) (e_panic e)
      else e
  | EReturn r st => match e_reqs e !! r with Some QRunning => set_req e r (QSending st) | _ => e end
  | ESend r =>
      match e_reqs e !! r with
      | Some (QSending st) =>
          if e_closed e
          then Eng (e_cap e) (e_chan e) (e_closed e) (e_stats e) (e_collector e) (e_dispatcher e) (e_wg e) (e_reqs e) (e_main e) true
          else if bool_decide (length (e_chan e) < e_cap e)
          then Eng (e_cap e) (e_chan e ++ [st]) (e_closed e) (e_stats e) (e_collector e) (e_dispatcher e) (e_wg e)
                   (<[r := QSent st]> (e_reqs e)) (e_main e) (e_panic e)
          else if e_collector e && bool_decide (e_chan e = [])
          then (* unbuffered: handed to the waiting collector *)
               Eng (e_cap e) (e_chan e) (e_closed e) (e_stats e ++ [st]) (e_collector e) (e_dispatcher e) (e_wg e)
                   (<[r := QSent st]> (e_reqs e)) (e_main e) (e_panic e)
          else e
      | _ => e
      end
  | EDone r =>
      match e_reqs e !! r with
      | Some (QSent st) =>
          Eng (e_cap e) (e_chan e) (e_closed e) (e_stats e) (e_collector e) (e_dispatcher e) (e_wg e - 1)
              (<[r := QDone st]> (e_reqs e)) (e_main e) (e_panic e)
      | _ => e
      end
  | ECollect =>
      if e_collector e then
        match e_chan e with
        | st :: rest =>
            Eng (e_cap e) rest (e_closed e) (e_stats e ++ [st]) true (e_dispatcher e) (e_wg e) (e_reqs e) (e_main e) (e_panic e)
        | [] =>
            if e_closed e
            then Eng (e_cap e) [] true (e_stats e) false (e_dispatcher e) (e_wg e) (e_reqs e) (e_main e) (e_panic e)
            else e
        end
      else e
  | EMain =>
      match e_main e with
      | MSleep => set_main e MStop
      | MStop => (* rendezvous with the dispatcher's select *)
          if e_dispatcher e
          then Eng (e_cap e) (e_chan e) (e_closed e) (e_stats e) (e_collector e) false (e_wg e) (e_reqs e) MWait (e_panic e)
          else e
      | MWait => if bool_decide (e_wg e = 0) then set_main e MClose else e
      | MClose =>
          Eng (e_cap e) (e_chan e) true (e_stats e) (e_collector e) (e_dispatcher e) (e_wg e) (e_reqs e) MWaitDone (e_panic e)
      | MWaitDone => if e_collector e then e else set_main e MReturned
      | MReturned => e
      end
  end.
Definition erun (e : eng) (ms : list emove) : eng := fold_left estep ms e.
