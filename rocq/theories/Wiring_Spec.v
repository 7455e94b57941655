(** * Specification vocabulary for the wiring spec

    Everything here is phrased over the history of calls, not over the spec's maps. *)
From Verif Require Export Wiring_Model.

Section spec.
  Context {T B V : Type}.
  Notation op := (op T B V).

  (** The name a call is about. *)
  Definition op_name (o : op) : string :=
    match o with
    | ODefine n _ _ _ _ | OAlias n _ | OSetProperty n _ _ | OAddProperty n _ _ => n
    end.

  Definition is_alias_op (o : op) : bool := match o with OAlias _ _ => true | _ => false end.
  Definition is_define_op (o : op) : bool := match o with ODefine _ _ _ _ _ => true | _ => false end.

  (** The most recent call about [n], if any. *)
  Definition last_about (h : list op) (n : string) : option op :=
    List.find (fun o => bool_decide (op_name o = n)) (rev h).

  (** What [GetProperties] should return, reading the history newest call first. *)
  Fixpoint props_newest_first (h : list op) (n k : string) : list V :=
    match h with
    | [] => []
    | OAlias a _ :: r => if bool_decide (a = n) then [] else props_newest_first r n k
    | OSetProperty n' k' v :: r =>
        if bool_decide (n' = n ∧ k' = k) then [v] else props_newest_first r n k
    | OAddProperty n' k' v :: r =>
        if bool_decide (n' = n ∧ k' = k) then props_newest_first r n k ++ [v]
        else props_newest_first r n k
    | ODefine _ _ _ _ _ :: r => props_newest_first r n k
    end.

  Definition expected_props (h : list op) (n k : string) : list V := props_newest_first (rev h) n k.

  (** [n] leads along alias links of [s] to [m], and [m] is not an alias. *)
  Inductive alias_end (s : spec T B V) : string → string → Prop :=
  | alias_end_here n : get_alias s n = None → alias_end s n n
  | alias_end_next n p m : get_alias s n = Some p → alias_end s p m → alias_end s n m.

  (** [n] leads to [m] along one or more alias links. *)
  Inductive alias_path (s : spec T B V) : string → string → Prop :=
  | alias_path_one n p : get_alias s n = Some p → alias_path s n p
  | alias_path_more n p m : get_alias s n = Some p → alias_path s p m → alias_path s n m.

  (** Following aliases from [n] runs into a cycle. *)
  Definition alias_cycle (s : spec T B V) (n : string) : Prop :=
    ∃ c, (n = c ∨ alias_path s n c) ∧ alias_path s c c.
End spec.
