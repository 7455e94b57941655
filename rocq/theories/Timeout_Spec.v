(** * Specification vocabulary for timeouts *)
From Verif Require Import Timeout_Model.

(** Both results are read together: the goroutine does not move between the caller's two reads. *)
Fixpoint atomic_reads {V E} (r : result V E) (tmo : E) (s : tstate V E) (sched : list tmove) : Prop :=
  match sched with
  | [] => True
  | mv :: sched' =>
      (match ts_m s, mv with MRead _ _, TGo => False | _, _ => True end) ∧
      atomic_reads r tmo (t_step r tmo s mv) sched'
  end.

Definition returned {V E} (s : tstate V E) (timedout : bool) (v : V) (e : option E) : Prop :=
  ts_m s = MRet timedout v e.
