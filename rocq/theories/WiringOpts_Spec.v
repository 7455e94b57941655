(** * Specification vocabulary for the options of wiring definitions

    Phrased over the history of calls, not over the spec's maps. *)
From Verif Require Export Wiring_Model Wiring_Spec.

Section spec.
  Context {T B V : Type}.
  Notation op := (op T B V).

  (** The [ProxyNode] flag a definition should carry, reading the history newest call first: the
      flag of the latest Define about [n], since [n] was last an alias, that passed options. *)
  Fixpoint proxy_newest_first (h : list op) (n : string) : bool :=
    match h with
    | [] => false
    | OAlias a _ :: r => if bool_decide (a = n) then false else proxy_newest_first r n
    | ODefine n' _ _ (Some o) _ :: r =>
        if bool_decide (n' = n) then wo_proxy o else proxy_newest_first r n
    | _ :: r => proxy_newest_first r n
    end.

  (** The [ReturnType] it should carry: what the latest Define about [n] passed as a return type,
      or else its node type; a Define without options keeps a return type that is already there. *)
  Fixpoint ret_newest_first (h : list op) (n : string) : option T :=
    match h with
    | [] => None
    | OAlias a _ :: r => if bool_decide (a = n) then None else ret_newest_first r n
    | ODefine n' t _ (Some o) _ :: r =>
        if bool_decide (n' = n)
        then match wo_ret o with Some rt => Some rt | None => t end
        else ret_newest_first r n
    | ODefine n' t _ None _ :: r =>
        if bool_decide (n' = n)
        then match ret_newest_first r n with Some rt => Some rt | None => t end
        else ret_newest_first r n
    | _ :: r => ret_newest_first r n
    end.
End spec.
