(** * Model of the retry wrappers generated by plugins/retries/codegen.go

    The wrapped service is an oracle [out : nat → result V E]: the outcome of the n-th call made to
    it.  Theorems quantify over all oracles, which covers every deterministic or non-deterministic
    behaviour of the service.  A method's results are one value [V] (standing for the tuple of
    non-error results) and an error. *)
From stdpp Require Export prelude list numbers.
From Coq Require Export ZArith.
Set Default Proof Using "Type".

Record result (V E : Type) := Result { rval : V; rerr : option E }.
Arguments Result {_ _} _ _.
Arguments rval {_ _} _.
Arguments rerr {_ _} _.

(** Observable effects: a call carrying context value attempt_num, and a sleep (nanoseconds). *)
Inductive event := ECall (attempt : Z) | ESleep (d : Z).
#[global] Instance event_eq_dec : EqDecision event.
Proof. solve_decision. Defined.

Section retry.
  Context {V E : Type}.
  Notation res := (result V E).
  Implicit Types (out : nat → res).

  (** codegen.go:163-172, the loop with [rem] iterations left, [i] done, and the named results
      currently [cur]. *)
  Fixpoint plain_loop out (rem i : nat) (cur : res) : list event * res :=
    match rem with
    | 0 => ([], cur)
    | S rem' =>
        let o := out i in
        match rerr o with
        | None => ([ECall (Z.of_nat i + 1)], o)
        | Some _ => let '(es, r) := plain_loop out rem' (S i) o in (ECall (Z.of_nat i + 1) :: es, r)
        end
    end.
  (** codegen.go:142-173: the generated method; [zero] is the zero value of the named results. *)
  Definition retry_plain out (max : Z) (zero : V) : list event * res :=
    plain_loop out (Z.to_nat max) 0 (Result zero None).

  (** codegen.go:201-213: fixed delay. *)
  Fixpoint fixed_loop out (d : Z) (rem i : nat) (cur : res) : list event * res :=
    match rem with
    | 0 => ([], cur)
    | S rem' =>
        let o := out i in
        match rerr o with
        | None => ([ECall (Z.of_nat i + 1)], o)
        | Some _ => let '(es, r) := fixed_loop out d rem' (S i) o in
                    (ECall (Z.of_nat i + 1) :: ESleep d :: es, r)
        end
    end.
  Definition retry_fixed out (max d : Z) (zero : V) : list event * res :=
    fixed_loop out d (Z.to_nat max) 0 (Result zero None).

  (** int64 wrap-around, for [delay *= 2] on time.Duration. *)
  Definition wrap64 (z : Z) : Z := ((z + 2 ^ 63) mod 2 ^ 64 - 2 ^ 63)%Z.

  Inductive bresult := BDone (es : list event) (r : res) | BPanic (es : list event) | BFuel.
  Definition bcons (es : list event) (b : bresult) : bresult :=
    match b with
    | BDone es' r => BDone (es ++ es') r
    | BPanic es' => BPanic (es ++ es')
    | BFuel => BFuel
    end.

  (** codegen.go:251-254 [addJitter]: [rnd m] is the value of [Int63n(m)]; [None] is its panic on
      a non-positive argument.  Go's division truncates towards zero. *)
  Definition add_jitter (rnd : Z → Z) (d : Z) : option Z :=
    let h := Z.quot d 2 in
    if (h <=? 0)%Z then None else Some (h + rnd h)%Z.

  (** codegen.go:261-297.  [jit] is the random source at each iteration if jitter is enabled;
      [cancelled i] says that the i-th select is won by ctx.Done(), with error [cerr].  [fuel]
      bounds the number of iterations, [BFuel] is running out of it. *)
  Fixpoint backoff_loop out (jit : option (nat → Z → Z)) (cancelled : nat → bool) (cerr : E)
      (limit : Z) (fuel : nat) (i : nat) (delay : Z) : bresult :=
    match fuel with
    | 0 => BFuel
    | S fuel' =>
        let o := out i in
        let ev := ECall (Z.of_nat i + 1) in
        match rerr o with
        | None => BDone [ev] o
        | Some _ =>
            if (limit <=? delay)%Z then BDone [ev] o else
            match (match jit with Some j => add_jitter (j i) delay | None => Some delay end) with
            | None => BPanic [ev]
            | Some s =>
                if cancelled i then BDone [ev] (Result (rval o) (Some cerr)) else
                let delay2 := wrap64 (delay * 2) in
                let delay' := if (limit <? delay2)%Z then limit else delay2 in
                bcons [ev; ESleep s]
                  (backoff_loop out jit cancelled cerr limit fuel' (S i) delay')
            end
        end
    end.
  Definition retry_backoff out jit cancelled cerr (delay limit : Z) (fuel : nat) : bresult :=
    backoff_loop out jit cancelled cerr limit fuel 0 delay.
End retry.
Arguments bresult : clear implicits.

(** ** Rate limited retries, codegen.go:302-397.

    Time is in nanoseconds and tokens are counted in units of 10^-9 token, so that the refill
    [elapsed seconds * rate] is the integer [elapsed * rate]: exact arithmetic replaces float64
    (rounding is not modelled). *)
Definition one_token : Z := 1000000000.
Record limiter := Limiter { l_tokens : Z; l_last : Z }.

(** codegen.go:316-328 (constructor). *)
Definition new_limiter (rate now : Z) : limiter := Limiter (rate * one_token) now.

(** codegen.go:348-366 [acquireToken] at time [now]. *)
Definition acquire (rate now : Z) (l : limiter) : limiter * bool :=
  let t := (l_tokens l + (now - l_last l) * rate)%Z in
  let t := if (rate * one_token <? t)%Z then (rate * one_token)%Z else t in
  if (one_token <=? t)%Z then (Limiter (t - one_token) now, true) else (Limiter t now, false).

(** The clock and the context as seen by successive polls: [clk n] is time.Now() at the n-th poll
    of the client's life and [dead n] says that the select after a failed n-th poll is won by
    ctx.Done(). *)
Record env := Env { clk : nat → Z; dead : nat → bool }.

Inductive wres := WGot (t : Z) | WCancelled | WFuel.

(** codegen.go:331-345 [waitForToken]; [n] is the number of polls made so far. *)
Fixpoint wait_token (rate : Z) (e : env) (fuel : nat) (l : limiter) (n : nat) : limiter * nat * wres :=
  match fuel with
  | 0 => (l, n, WFuel)
  | S fuel' =>
      let '(l', ok) := acquire rate (clk e n) l in
      if ok then (l', S n, WGot (clk e n))
      else if dead e n then (l', S n, WCancelled)
      else wait_token rate e fuel' l' (S n)
  end.

(** Observable calls of a rate limited client: the first try, or a retry with the time at which
    its token was obtained; both with the attempt_num they carry. *)
Inductive rlevent := RFirst (attempt : Z) | RRetry (attempt : Z) (t : Z).

Section ratelimit.
  Context {V E : Type}.
  Notation res := (result V E).

  (** State threaded through requests: limiter, polls so far, calls so far. *)
  Record rlstate := RL { rl_lim : limiter; rl_polls : nat; rl_calls : nat }.

  (** codegen.go:381-393: the retry loop, iteration [i] with [rem] iterations left. *)
  Fixpoint rl_loop (rate : Z) (e : env) (out : nat → res) (cerr : E) (fuel rem : nat) (i : Z)
      (st : rlstate) (cur : res) : option (rlstate * list rlevent * res) :=
    match rem with
    | 0 => Some (st, [], cur)
    | S rem' =>
        match wait_token rate e fuel (rl_lim st) (rl_polls st) with
        | (_, _, WFuel) => None
        | (l', n', WGot t) =>
            let o := out (rl_calls st) in
            let st' := RL l' n' (S (rl_calls st)) in
            match rerr o with
            | None => Some (st', [RRetry i t], o)
            | Some _ => match rl_loop rate e out cerr fuel rem' (i + 1) st' o with
                        | Some (st'', es, r) => Some (st'', RRetry i t :: es, r)
                        | None => None
                        end
            end
        | (l', n', WCancelled) =>
            rl_loop rate e out cerr fuel rem' (i + 1) (RL l' n' (rl_calls st))
              (Result (rval cur) (Some cerr))
        end
    end.

  (** codegen.go:371-396: the generated method. *)
  Definition rl_request (rate max : Z) (e : env) (out : nat → res) (cerr : E) (fuel : nat)
      (st : rlstate) : option (rlstate * list rlevent * res) :=
    let o := out (rl_calls st) in
    let st' := RL (rl_lim st) (rl_polls st) (S (rl_calls st)) in
    match rerr o with
    | None => Some (st', [RFirst 1], o)
    | Some _ =>
        match rl_loop rate e out cerr fuel (Z.to_nat (max - 1)) 1 st' o with
        | Some (st'', es, r) => Some (st'', RFirst 1 :: es, r)
        | None => None
        end
    end.

  (** A sequence of [k] requests on one client, one after the other. *)
  Fixpoint rl_requests (rate max : Z) (e : env) (out : nat → res) (cerr : E) (fuel k : nat)
      (st : rlstate) : option (rlstate * list rlevent) :=
    match k with
    | 0 => Some (st, [])
    | S k' =>
        match rl_request rate max e out cerr fuel st with
        | None => None
        | Some (st', es, _) =>
            match rl_requests rate max e out cerr fuel k' st' with
            | None => None
            | Some (st'', es') => Some (st'', es ++ es')
            end
        end
    end.
End ratelimit.

(** Concurrent use of one client: [acquireToken] takes no lock.  Each thread reads [tokens] and
    [lastRefill], computes, and writes both back later; [sched] lists which thread moves. Threads
    are numbered; a thread's local state is the pair it is about to write. *)
Inductive athread := TIdle | TRead (l : limiter) (ok : bool) | TDone (ok : bool).
Definition astep (rate now : Z) (s : limiter * list athread) (t : nat) : limiter * list athread :=
  match snd s !! t with
  | Some TIdle => let '(l', ok) := acquire rate now (fst s) in (fst s, <[t := TRead l' ok]> (snd s))
  | Some (TRead l' ok) => (l', <[t := TDone ok]> (snd s))
  | _ => s
  end.
Definition acquired (ts : list athread) : nat :=
  length (List.filter (λ t, match t with TDone true => true | _ => false end) ts).

(** ** Token bucket, codegen.go:399-441.  Amounts are integers in an arbitrary unit, [one] being
    the code's 1.0 (float64 rounding is not modelled). *)
Record bucket_cfg := BCfg { bc_one : Z; bc_cap : Z; bc_cost : Z; bc_refill : Z }.

Section bucket.
  Context {V E : Type}.
  Notation res := (result V E).

  (** codegen.go:421-440: one request whose (at most two) calls have outcomes [o1], [o2]; result:
      new bucket, whether the call was retried, returned result. *)
  Definition tb_request (c : bucket_cfg) (tb : Z) (o1 o2 : res) : Z * bool * res :=
    match rerr o1 with
    | None => (tb, false, o1)
    | Some _ =>
        if (tb - bc_cost c <? bc_one c)%Z then (tb, false, o1)
        else
          let tb' := (tb - bc_cost c)%Z in
          match rerr o2 with
          | None => (Z.min (tb' + bc_refill c) (bc_cap c), true, o2)
          | Some _ => (tb', true, o2)
          end
    end.

  (** A history of requests; per request, was it retried and did the retry succeed. *)
  Fixpoint tb_run (c : bucket_cfg) (tb : Z) (h : list (res * res)) : Z * list (bool * bool) :=
    match h with
    | [] => (tb, [])
    | (o1, o2) :: h' =>
        let '(tb', retried, r) := tb_request c tb o1 o2 in
        let '(tb'', l) := tb_run c tb' h' in
        (tb'', (retried, retried && bool_decide (rerr r = None)) :: l)
    end.
End bucket.
