(** * Specification vocabulary for the workload generator *)
From Verif Require Import Workload_Model.
Open Scope Z_scope.

(** The proportion configured for a request function: the sum over the APIs that use it. *)
Definition configured (apis : list api) (f : nat) : Z :=
  foldr (λ a acc, (if bool_decide (a_fn a = f) then a_prop a else 0) + acc) 0 apis.
Definition total (apis : list api) : Z := foldr (λ a acc, a_prop a + acc) 0 apis.
(** The number of the 100 dispatch slots that select a request function. *)
Definition slots (m : gmap Z nat) (f : nat) : Z :=
  Z.of_nat (length (List.filter (λ n, bool_decide (dispatch m (Z.of_nat n) = Some f)) (seq 0 100))).

Close Scope Z_scope.

(** The statistic a request produced, if it has produced one. *)
Definition produced (ph : reqphase) : list nat :=
  match ph with QRunning => [] | QSending st | QSent st | QDone st => [st] end.
Definition finished (ph : reqphase) : Prop := match ph with QDone _ => True | _ => False end.
