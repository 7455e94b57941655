(** * Model of the in-memory queue, runtime/plugins/simplequeue/queue.go

    Any number of producers and consumers call Push and Pop concurrently.  A Go channel is a FIFO
    buffer of bounded capacity; sends and receives on it are atomic.  When several callers are blocked,
    the model lets any of them proceed, which includes Go's order. *)
From Verif Require Export Copy_Model.
Set Default Proof Using "Type".

(** A caller: not in a call, or blocked in the inner select of Push (queue.go:57-62) or of Pop
    (queue.go:40-45). *)
Inductive qphase := QIdle | QPushing (x : gval) | QPopping (d : dest).

(** What calls returned, in order. *)
Inductive qout :=
| Pushed (t : nat) (x : gval)         (* (true, nil) *)
| PushFailed (t : nat) (x : gval)     (* (false, nil) *)
| Popped (t : nat) (x : gval) (r : copied)  (* (true, CopyResult(x, dst)) *)
| PopFailed (t : nat).                (* (false, nil) *)

Record queue := Queue {
  q_cap : nat;
  q_buf : list gval;
  q_phase : gmap nat qphase;      (* absent = idle *)
  q_dead : gset nat;              (* callers whose context is cancelled *)
  q_log : list qout }.

(** queue.go:22-31. *)
Definition new_queue (cap : nat) : queue := Queue cap [] ∅ ∅ [].

Definition phase (q : queue) (t : nat) : qphase := default QIdle (q_phase q !! t).

(** Scheduler moves: caller [t] enters Push/Pop, a blocked caller gets its turn, a blocked caller
    takes the ctx.Done() case, a context is cancelled. *)
Inductive qmove := QPush (t : nat) (x : gval) | QPop (t : nat) (d : dest) | QRun (t : nat)
                 | QGiveUp (t : nat) | QCancel (t : nat).

Definition do_push (q : queue) (t : nat) (x : gval) : queue :=
  Queue (q_cap q) (q_buf q ++ [x]) (<[t := QIdle]> (q_phase q)) (q_dead q) (q_log q ++ [Pushed t x]).
Definition do_pop (q : queue) (t : nat) (d : dest) (x : gval) (rest : list gval) : queue :=
  Queue (q_cap q) rest (<[t := QIdle]> (q_phase q)) (q_dead q) (q_log q ++ [Popped t x (copy_to x d)]).
Definition set_phase (q : queue) (t : nat) (p : qphase) : queue :=
  Queue (q_cap q) (q_buf q) (<[t := p]> (q_phase q)) (q_dead q) (q_log q).

Definition qstep (q : queue) (m : qmove) : queue :=
  match m with
  | QPush t x => (* queue.go:51-56: the outer select does not look at the context *)
      match phase q t with
      | QIdle => if bool_decide (length (q_buf q) < q_cap q) then do_push q t x else set_phase q t (QPushing x)
      | _ => q
      end
  | QPop t d => (* queue.go:34-39 *)
      match phase q t with
      | QIdle => match q_buf q with
                 | x :: rest => do_pop q t d x rest
                 | [] => set_phase q t (QPopping d)
                 end
      | _ => q
      end
  | QRun t =>
      match phase q t with
      | QPushing x => if bool_decide (length (q_buf q) < q_cap q) then do_push q t x else q
      | QPopping d => match q_buf q with x :: rest => do_pop q t d x rest | [] => q end
      | QIdle => q
      end
  | QGiveUp t =>
      if bool_decide (t ∈ q_dead q) then
        match phase q t with
        | QPushing x => Queue (q_cap q) (q_buf q) (<[t := QIdle]> (q_phase q)) (q_dead q) (q_log q ++ [PushFailed t x])
        | QPopping d => Queue (q_cap q) (q_buf q) (<[t := QIdle]> (q_phase q)) (q_dead q) (q_log q ++ [PopFailed t])
        | QIdle => q
        end
      else q
  | QCancel t => Queue (q_cap q) (q_buf q) (q_phase q) ({[t]} ∪ q_dead q) (q_log q)
  end.
Definition qrun (q : queue) (ms : list qmove) : queue := fold_left qstep ms q.
