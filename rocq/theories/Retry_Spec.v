(** * Specification vocabulary for the retry wrappers *)
From Verif Require Import Retry_Model.

Definition succeeds {V E} (r : result V E) : Prop := rerr r = None.
Definition fails {V E} (r : result V E) : Prop := is_Some (rerr r).

(** Calls numbered 1..k, in order, and nothing else. *)
Definition attempts (k : nat) : list event := (λ i, ECall (Z.of_nat i + 1)) <$> seq 0 k.

(** Calls i+1, i+2, ... separated by the waits [ws]. *)
Fixpoint interleave (i : nat) (ws : list Z) : list event :=
  match ws with
  | [] => [ECall (Z.of_nat i + 1)]
  | w :: ws' => ECall (Z.of_nat i + 1) :: ESleep w :: interleave (S i) ws'
  end.

(** A wait for nominal delay [d]: exactly [d], or with jitter between half of [d] and [d]. *)
Definition wait_ok (jit : option (nat → Z → Z)) (d w : Z) : Prop :=
  match jit with None => w = d | Some _ => (d / 2 ≤ w < d)%Z end.
(** Int63n(m) lies in [0,m). *)
Definition jitter_ok (jit : option (nat → Z → Z)) : Prop :=
  ∀ j, jit = Some j → ∀ i m, (0 < m → 0 ≤ j i m < m)%Z.

(** Number of retries whose token was obtained within the closed window [a,b]. *)
Definition retries_in (a b : Z) (es : list rlevent) : nat :=
  length (List.filter (λ e, match e with RRetry _ t => (a <=? t)%Z && (t <=? b)%Z | RFirst _ => false end) es).
Definition retries (es : list rlevent) : nat :=
  length (List.filter (λ e, match e with RRetry _ _ => true | RFirst _ => false end) es).
Definition attempt_of (e : rlevent) : Z := match e with RFirst a => a | RRetry a _ => a end.

(** A clock that never goes back. *)
Definition monotone (clk : nat → Z) : Prop := ∀ n, (clk n ≤ clk (S n))%Z.

Definition count (l : list bool) : Z := Z.of_nat (length (List.filter id l)).
