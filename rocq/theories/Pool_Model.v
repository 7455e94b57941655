(** * Model of the client pool, runtime/plugins/clientpool/clientpool.go

    Any fixed number of goroutines call Pop and Push.  Every atomic operation, plain read and channel
    operation of the code is one step; the scheduler picks the goroutine.  Clients are numbered in the
    order in which they are built. *)
From stdpp Require Export prelude list gmap.
Set Default Proof Using "Type".

(** Where a goroutine is. *)
Inductive pphase :=
| PIdle                      (* outside the pool, holding nothing *)
| PEnter                     (* clientpool.go:48: at the first select *)
| PReadSize                  (* :60, :68: about to read pool.size *)
| PCas (cur : nat)           (* :61: about to compare-and-swap *)
| PBuilding                  (* :62: calling build *)
| PGot (c : nat)             (* :52-53: received, available not yet decremented *)
| PPreWait                   (* :72: about to increment waiting *)
| PWaiting                   (* :73: blocked in the second select *)
| PGotW (c : nat)            (* :76-77: received after waiting *)
| PLeaveW (c : option nat)   (* :79: about to decrement waiting; no client = timed out *)
| PHold (c : nat)            (* outside the pool, holding a client *)
| PPushing (c : nat).        (* :85: available incremented, about to send *)

Record pool := Pool {
  p_cap : nat;
  p_chan : list nat;      (* buffered channel, capacity p_cap *)
  p_size : nat;
  p_avail : Z;
  p_waiting : Z;
  p_next : nat;           (* next client number *)
  p_threads : list pphase;
  p_dead : gset nat }.    (* goroutines whose context is done *)

(** clientpool.go:30-40, with [n] goroutines. *)
Definition new_pool (cap n : nat) : pool := Pool cap [] 0 0 0 0 (replicate n PIdle) ∅.

Inductive pmove :=
| MPop (t : nat)                  (* call Pop *)
| MRun (t : nat)                  (* next step inside the pool *)
| MBuild (t : nat) (ok : bool)    (* build returns *)
| MGiveUp (t : nat)               (* the ctx.Done() case *)
| MPush (t : nat)                 (* call Push with the client held *)
| MCancel (t : nat).              (* context of t is cancelled *)

Definition upd (p : pool) (t : nat) (ph : pphase) : pool :=
  Pool (p_cap p) (p_chan p) (p_size p) (p_avail p) (p_waiting p) (p_next p) (<[t := ph]> (p_threads p)) (p_dead p).
Definition set_chan (p : pool) (l : list nat) : pool :=
  Pool (p_cap p) l (p_size p) (p_avail p) (p_waiting p) (p_next p) (p_threads p) (p_dead p).
Definition set_size (p : pool) (n : nat) : pool :=
  Pool (p_cap p) (p_chan p) n (p_avail p) (p_waiting p) (p_next p) (p_threads p) (p_dead p).
Definition add_avail (p : pool) (d : Z) : pool :=
  Pool (p_cap p) (p_chan p) (p_size p) (p_avail p + d) (p_waiting p) (p_next p) (p_threads p) (p_dead p).
Definition add_waiting (p : pool) (d : Z) : pool :=
  Pool (p_cap p) (p_chan p) (p_size p) (p_avail p) (p_waiting p + d) (p_next p) (p_threads p) (p_dead p).
Definition bump_next (p : pool) : pool :=
  Pool (p_cap p) (p_chan p) (p_size p) (p_avail p) (p_waiting p) (S (p_next p)) (p_threads p) (p_dead p).

Definition pstep (p : pool) (m : pmove) : pool :=
  match m with
  | MPop t => match p_threads p !! t with Some PIdle => upd p t PEnter | _ => p end
  | MPush t => (* clientpool.go:83-84 *)
      match p_threads p !! t with Some (PHold c) => upd (add_avail p 1) t (PPushing c) | _ => p end
  | MBuild t ok => (* clientpool.go:62-66 *)
      match p_threads p !! t with
      | Some PBuilding =>
          if ok then upd (bump_next p) t (PHold (p_next p)) else upd (set_size p (p_size p - 1)) t PIdle
      | _ => p
      end
  | MGiveUp t =>
      if bool_decide (t ∈ p_dead p) then
        match p_threads p !! t with
        | Some PEnter => upd p t PIdle                 (* :49-51 *)
        | Some PWaiting => upd p t (PLeaveW None)      (* :74-75 *)
        | _ => p
        end
      else p
  | MCancel t =>
      Pool (p_cap p) (p_chan p) (p_size p) (p_avail p) (p_waiting p) (p_next p) (p_threads p) ({[t]} ∪ p_dead p)
  | MRun t =>
      match p_threads p !! t with
      | Some PEnter =>
          match p_chan p with
          | c :: l => upd (set_chan p l) t (PGot c)
          | [] => upd p t PReadSize
          end
      | Some (PGot c) => upd (add_avail p (-1)) t (PHold c)
      | Some PReadSize =>
          if bool_decide (p_size p < p_cap p) then upd p t (PCas (p_size p)) else upd p t PPreWait
      | Some (PCas cur) =>
          if bool_decide (p_size p = cur) then upd (set_size p (S cur)) t PBuilding else upd p t PReadSize
      | Some PPreWait => upd (add_waiting p 1) t PWaiting
      | Some PWaiting =>
          match p_chan p with
          | c :: l => upd (set_chan p l) t (PGotW c)
          | [] => p
          end
      | Some (PGotW c) => upd (add_avail p (-1)) t (PLeaveW (Some c))
      | Some (PLeaveW o) => upd (add_waiting p (-1)) t (match o with Some c => PHold c | None => PIdle end)
      | Some (PPushing c) =>
          if bool_decide (length (p_chan p) < p_cap p) then upd (set_chan p (p_chan p ++ [c])) t PIdle else p
      | _ => p
      end
  end.
Definition prun (p : pool) (ms : list pmove) : pool := fold_left pstep ms p.
