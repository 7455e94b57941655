(** * Model of the RabbitMQ queue client, runtime/plugins/rabbitmq/queue.go

    Each process that uses the queue has a client; any number of callers in the process call Push and Pop concurrently.  The
    broker keeps the messages of the queue in the order of their arrival and hands each to one of the clients, which
    all consume with automatic acknowledgement (queue.go:35): the message is then in that client's buffer, an unbounded
    list inside the amqp091 library.  The broker and the library are taken at their documented behaviour. *)
From Verif Require Export Copy_Model.
From stdpp Require Export list.
Set Default Proof Using "Type".

(** Encoding/json: json.Marshal (queue.go:42-44), and json.Unmarshal into an interface{} (queue.go:46-50) *)
Record qcodec := QCodec {
  qtext : Type;
  qmarshal : gval → option qtext;
  decode_any : qtext → option gval }.

(** What becomes of a published message: it arrives; it does not and Publish returns an error; it arrives although Publish
    returns an error; it is lost although Publish returned nil (the client does not ask for confirmations). *)
Inductive pfate := Arrives | Fails | ArrivesWithError | Vanishes.

Section codec.
Context (Q : qcodec).

(** What calls returned, latest last *)
Inductive rout :=
| RPushed (c : nat) (x : gval) (ok : bool)                   (* (true, err) with err = nil if [ok] *)
| RPushFailed (c : nat) (x : gval)                           (* (false, err): no JSON text *)
| RPopped (c t : nat) (m : qtext Q) (r : copied)             (* (true, err): a message was taken *)
| RPopClosed (c t : nat)                                     (* (true, err): no message, the connection is closed *)
| RPopFailed (c t : nat).                                    (* (false, nil) *)

Record rstate := RState {
  r_broker : list (qtext Q);
  r_open : gset nat;                      (* clients whose connection is open *)
  r_buf : gmap nat (list (qtext Q));      (* per client; absent = empty *)
  r_wait : gmap (nat * nat) dest;         (* callers blocked in the inner select of Pop, queue.go:73-82 *)
  r_dead : gset (nat * nat);              (* callers whose context is cancelled *)
  r_log : list rout;
  r_arrived : list (qtext Q);             (* history: what arrived at the broker *)
  r_dropped : gmap nat (list (qtext Q))   (* history: what was in a client's buffer when its connection was lost *) }.
Definition rinit : rstate := RState [] ∅ ∅ ∅ ∅ [] [] ∅.
Definition buf (s : rstate) (c : nat) : list (qtext Q) := default [] (r_buf s !! c).
Definition dropped (s : rstate) (c : nat) : list (qtext Q) := default [] (r_dropped s !! c).

(** NewRabbitMQ (a client is made once); Push; the broker hands its first message to a client; a caller enters Pop; a blocked
    caller gets its turn; a blocked caller takes the ctx.Done() case; a context is cancelled; a connection is lost, and with
    it all but the first [n] messages in the client's buffer *)
Inductive rmove :=
| ROpen (c : nat) | RPush (c : nat) (x : gval) (f : pfate) | RDeliver (c : nat) | RPop (c t : nat) (d : dest) | RRun (c t : nat)
| RGiveUp (c t : nat) | RCancel (c t : nat) | RClose (c n : nat).

(** queue.go:66-70 and 75-79 *)
Definition pop_result (m : qtext Q) (d : dest) : copied :=
  match decode_any Q m with Some v => copy_to v d | None => CErr end.
Definition log (s : rstate) (o : rout) : rstate :=
  RState (r_broker s) (r_open s) (r_buf s) (r_wait s) (r_dead s) (r_log s ++ [o]) (r_arrived s) (r_dropped s).
Definition set_wait (s : rstate) (w : gmap (nat * nat) dest) : rstate :=
  RState (r_broker s) (r_open s) (r_buf s) w (r_dead s) (r_log s) (r_arrived s) (r_dropped s).
(** The message reaches the broker. *)
Definition arrive (s : rstate) (m : qtext Q) : rstate :=
  RState (r_broker s ++ [m]) (r_open s) (r_buf s) (r_wait s) (r_dead s) (r_log s) (r_arrived s ++ [m]) (r_dropped s).
(** A receive from [q.msgs] by caller [t], if it is possible: a closed channel gives the zero Delivery, whose empty body is
    not JSON *)
Definition receive (s : rstate) (c t : nat) (d : dest) : option rstate :=
  match buf s c with
  | m :: rest =>
      Some (RState (r_broker s) (r_open s) (<[c := rest]> (r_buf s)) (delete (c, t) (r_wait s)) (r_dead s)
              (r_log s ++ [RPopped c t m (pop_result m d)]) (r_arrived s) (r_dropped s))
  | [] =>
      if bool_decide (c ∈ r_open s) then None
      else Some (log (set_wait s (delete (c, t) (r_wait s))) (RPopClosed c t))
  end.

Definition rstep (s : rstate) (m : rmove) : rstate :=
  match m with
  | ROpen c => (* queue.go:22-40 ; a client whose connection was lost is not used again *)
      match r_dropped s !! c with
      | None => RState (r_broker s) ({[c]} ∪ r_open s) (r_buf s) (r_wait s) (r_dead s) (r_log s) (r_arrived s) (r_dropped s)
      | Some _ => s
      end
  | RPush c x f => (* queue.go:53-60 *)
      match qmarshal Q x with
      | None => log s (RPushFailed c x)
      | Some m =>
          if bool_decide (c ∈ r_open s) then
            match f with
            | Arrives => log (arrive s m) (RPushed c x true)
            | Fails => log s (RPushed c x false)
            | ArrivesWithError => log (arrive s m) (RPushed c x false)
            | Vanishes => log s (RPushed c x true)
            end
          else log s (RPushed c x false)
      end
  | RDeliver c =>
      match r_broker s with
      | m :: rest =>
          if bool_decide (c ∈ r_open s)
          then RState rest (r_open s) (<[c := buf s c ++ [m]]> (r_buf s)) (r_wait s) (r_dead s) (r_log s) (r_arrived s) (r_dropped s)
          else s
      | [] => s
      end
  | RPop c t d => (* queue.go:63-71: the outer select does not look at the context *)
      match r_wait s !! (c, t) with
      | Some _ => s
      | None => match receive s c t d with Some s' => s' | None => set_wait s (<[(c, t) := d]> (r_wait s)) end
      end
  | RRun c t =>
      match r_wait s !! (c, t) with
      | Some d => match receive s c t d with Some s' => s' | None => s end
      | None => s
      end
  | RGiveUp c t =>
      if bool_decide ((c, t) ∈ r_dead s) then
        match r_wait s !! (c, t) with
        | Some _ => log (set_wait s (delete (c, t) (r_wait s))) (RPopFailed c t)
        | None => s
        end
      else s
  | RCancel c t =>
      RState (r_broker s) (r_open s) (r_buf s) (r_wait s) ({[(c, t)]} ∪ r_dead s) (r_log s) (r_arrived s) (r_dropped s)
  | RClose c n =>
      RState (r_broker s) (r_open s ∖ {[c]}) (<[c := take n (buf s c)]> (r_buf s)) (r_wait s) (r_dead s) (r_log s) (r_arrived s)
        (<[c := drop n (buf s c) ++ dropped s c]> (r_dropped s))
  end.
Definition rrun (ms : list rmove) : rstate := fold_left rstep ms rinit.
End codec.
