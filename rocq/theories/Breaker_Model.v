(** * Model of the circuit breaker wrapper: plugins/circuitbreaker/codegen.go and the part of
      github.com/mercari/go-circuitbreaker it uses

    The library is not part of the repository; it is modelled after its documentation and known behaviour: states
    closed, open and half-open; counters that a ticker resets while the breaker is closed; the trip function is
    asked when a call fails while the breaker is closed.  What its documentation leaves open is a parameter: how
    long it stays open ([b_backoff]; the generated code sets no timeout, so this is the library's own randomised
    backoff), how many successes close it again ([b_probes], 4 by default), whether closing keeps the count of
    successes ([b_keep]).

    Simplifications: the rate is exact arithmetic instead of float64; a ticker's or timer's goroutine runs at most
    [b_late] after it is due; a ticker event that is already under way when the breaker opens is lost. *)
From stdpp Require Export gmap list.
From Coq Require Export ZArith QArith.
Close Scope Q_scope.
Set Default Proof Using "Type".
Open Scope Z_scope.

(** codegen.go:47-78: the configuration.  [b_interval]: None if the counters are never reset. *)
Record conf := Conf {
  b_min : Z; b_rate : Q; b_interval : option Z;
  b_backoff : nat → Z; b_probes : nat; b_keep : bool; b_late : Z }.

(** What a call of the wrapped client does: return without error, return an error, panic. *)
Inductive outcome := Success (v : Z) | Failure (e : Z) | Panic (v : Z).
(** What the caller of the generated method gets: that, or circuitbreaker.ErrOpen. *)
Inductive reply := Passed (o : outcome) | ErrOpen.

Inductive bstate := Closed (due : option Z) | Open (due : Z) | HalfOpen.
Record breaker := Breaker { br_state : bstate; br_succ : Z; br_fail : Z; br_opened : nat }.

(** What happens: a caller calls the generated method, the wrapped client invokes the service, it returns, the
    generated method returns. *)
Inductive obs := Called (i : nat) | Invoked (i : nat) | Returned (i : nat) (o : outcome) | Replied (i : nat) (r : reply).
Record sys := Sys { s_now : Z; s_br : breaker; s_running : gset nat; s_used : gset nat; s_log : list (Z * obs) }.

Inductive event :=
| Pass (d : Z)                   (* time passes *)
| Tick                           (* the ticker of the closed state *)
| Timer                          (* the timer of the open state *)
| Call (i : nat)                 (* call i of a generated method *)
| Return (i : nat) (o : outcome) (* its call of the wrapped client ends *).

Section breaker.
Context (C : conf).

(** Entering the states.  The first backoff after a call that closes the breaker may be shorter; [b_backoff]
    covers this, as it is any function of the number of times the breaker opened. *)
Definition enter_closed (now : Z) (b : breaker) : breaker :=
  Breaker (Closed ((λ d, now + d) <$> b_interval C)) (if b_keep C then br_succ b else 0) 0 (br_opened b).
Definition enter_open (now : Z) (b : breaker) : breaker :=
  Breaker (Open (now + b_backoff C (br_opened b))) (br_succ b) (br_fail b) (S (br_opened b)).
Definition enter_half (b : breaker) : breaker := Breaker HalfOpen 0 (br_fail b) (br_opened b).
(** codegen.go:66-72 [circuitbreaker.New] *)
Definition new_breaker : breaker := enter_closed 0 (Breaker HalfOpen 0 0 0).

(** [NewTripFuncFailureRate(min, rate)]: codegen.go:70 *)
Definition should_trip (b : breaker) : bool :=
  if br_succ b + br_fail b <? b_min C then false
  else match br_succ b + br_fail b with
       | Zpos n => Qle_bool (b_rate C) (br_fail b # n)
       | _ => false end.
Definition ready (b : breaker) : bool := match br_state b with Open _ => false | _ => true end.
Definition success (now : Z) (b : breaker) : breaker :=
  let b := Breaker (br_state b) (br_succ b + 1) (br_fail b) (br_opened b) in
  match br_state b with
  | HalfOpen => if Z.of_nat (b_probes C) <=? br_succ b then enter_closed now b else b
  | _ => b end.
Definition fail (now : Z) (b : breaker) : breaker :=
  let b := Breaker (br_state b) (br_succ b) (br_fail b + 1) (br_opened b) in
  match br_state b with
  | Closed _ => if should_trip b then enter_open now b else b
  | HalfOpen => enter_open now b
  | Open _ => b end.
(** [Done(ctx, err)] with the options of codegen.go:67-68: every error is a failure.  codegen.go:85: the deferred
    function also runs when the call panics; err is then nil. *)
Definition done (now : Z) (o : outcome) (b : breaker) : breaker :=
  match o with
  | Success _ | Panic _ => success now b
  | Failure _ => fail now b end.

(** When the next ticker or timer event is due. *)
Definition due (b : breaker) : option Z :=
  match br_state b with Closed d => d | Open d => Some d | HalfOpen => None end.
(** codegen.go:80-87, one event.  [None]: the event cannot happen now. *)
Definition step (s : sys) (e : event) : option sys :=
  let now := s_now s in
  let b := s_br s in
  match e with
  | Pass d =>
      if (d <=? 0) then None
      else if match due b with Some t => now + d <=? t + b_late C | None => true end
           then Some (Sys (now + d) b (s_running s) (s_used s) (s_log s))
           else None
  | Tick =>
      match br_state b with
      | Closed (Some t) =>
          if t <=? now
          then Some (Sys now (Breaker (Closed (Some (t + default 0 (b_interval C)))) 0 0 (br_opened b)) (s_running s) (s_used s) (s_log s))
          else None
      | _ => None end
  | Timer =>
      match br_state b with
      | Open t => if t <=? now then Some (Sys now (enter_half b) (s_running s) (s_used s) (s_log s)) else None
      | _ => None end
  | Call i =>
      if decide (i ∈ s_used s) then None
      else if ready b
           then Some (Sys now b ({[i]} ∪ s_running s) ({[i]} ∪ s_used s) (s_log s ++ [(now, Called i); (now, Invoked i)]))
           else Some (Sys now b (s_running s) ({[i]} ∪ s_used s) (s_log s ++ [(now, Called i); (now, Replied i ErrOpen)]))
  | Return i o =>
      if decide (i ∈ s_running s)
      then Some (Sys now (done now o b) (s_running s ∖ {[i]}) (s_used s)
                   (s_log s ++ [(now, Returned i o); (now, Replied i (Passed o))]))
      else None end.
Fixpoint run (s : sys) (es : list event) : option sys :=
  match es with
  | [] => Some s
  | e :: r => match step s e with Some s' => run s' r | None => None end end.
Definition start : sys := Sys 0 new_breaker ∅ ∅ [].
End breaker.
