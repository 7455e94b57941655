(** * Specification: what a queue behind RabbitMQ delivers *)
From Verif Require Export NetQueue_Model Copy_Spec.
Set Default Proof Using "Type".

(** The types that json.Unmarshal into an interface{} produces: nil; bool, float64, string and map[string]interface{} (here:
    the base types for which [json_base] holds); and []interface{} *)
Inductive json_val (json_base : nat → Prop) : gval → Prop :=
| JNil : json_val json_base VNil
| JBase n x : json_base n → json_val json_base (VBase n x)
| JSlice vs : Forall (json_val json_base) vs → json_val json_base (VSlice TAny vs).
Definition qcodec_ok (Q : qcodec) (json_base : nat → Prop) : Prop :=
  ∀ m v, decode_any Q m = Some v → json_val json_base v.
(** Every datum in the tree has one of these base types. *)
Fixpoint json_data (json_base : nat → Prop) (x : tree) : Prop :=
  match x with
  | LNil => True
  | LInt _ => False
  | LBase n _ => json_base n
  | LNode l => fold_right (λ x P, json_data json_base x ∧ P) True l
  end.
(** JSON keeps the data of [x]. *)
Definition survives (Q : qcodec) (x : gval) (m : qtext Q) : Prop :=
  qmarshal Q x = Some m ∧ ∃ v, decode_any Q m = Some v ∧ erase v = erase x.

Section spec.
Context (Q : qcodec).
(** The messages popped by client [c], by anyone; the messages of the items pushed, in order *)
Definition popped_by (l : list (rout Q)) (c : nat) : list (qtext Q) :=
  omap (λ o, match o with RPopped _ c' _ m _ => if decide (c' = c) then Some m else None | _ => None end) l.
Definition popped (l : list (rout Q)) : list (qtext Q) :=
  omap (λ o, match o with RPopped _ _ _ m _ => Some m | _ => None end) l.
Definition pushed (l : list (rout Q)) : list (qtext Q) :=
  omap (λ o, match o with RPushed _ _ x _ => qmarshal Q x | _ => None end) l.
(** The messages that were handed to client [c] *)
Definition handed_to (sent : list (nat * qtext Q)) (c : nat) : list (qtext Q) :=
  omap (λ p, if decide (p.1 = c) then Some p.2 else None) sent.
Definition acknowledged (l : list (rout Q)) : list (qtext Q) :=
  omap (λ o, match o with RPushed _ _ x true => qmarshal Q x | _ => None end) l.

(** Every arrived message was either handed to exactly one client, in the order of arrival, or is still at the broker; and
    what was handed to a client was popped there, in order, or waits in its buffer, or was dropped with its connection. *)
Definition accounted (s : rstate Q) : Prop :=
  ∃ sent, r_arrived Q s = map snd sent ++ r_broker Q s ∧
    ∀ c, handed_to sent c = popped_by (r_log Q s) c ++ buf Q s c ++ dropped Q s c.
(** No connection is lost and every published message arrives. *)
Definition calm_move (m : rmove) : Prop :=
  match m with RPush _ _ f => f = Arrives | RClose _ _ => False | _ => True end.
(** Only client [c] is ever made. *)
Definition only (c : nat) (m : rmove) : Prop := match m with ROpen c' => c' = c | _ => True end.
End spec.
