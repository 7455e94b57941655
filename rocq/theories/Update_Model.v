(** * Model of NoSQL updates, runtime/plugins/simplenosqldb/query/{update,parseupdate}.go

    The code updates a document in place through pointers; here an update maps the pointed-to value to
    the value after the call and says how the call ended.  Documents are taken not to share storage. *)
From Verif Require Export Filter_Model.

(** What is outside the model: BSON marshalling of the operands ($set, $push, $addToSet take a detour
    through bytes, which turns e.g. int into int32 or int64), and what a Go slice holds beyond its length
    (re-exposed by update.go:409). *)
Record uenv := UEnv {
  normalise : val → option val;         (* MarshalValue then UnmarshalValue; None if it fails *)
  stale : list val → list val }.        (* elements beyond the length, as far as the capacity goes *)

(** update.go:21-69 *)
Inductive update :=
| USet (v : val) | UPush (v : val) | UAddToSet (v : val)
| UPull (f : qfilter)
| UUnsetField (k : string) | UUnsetElement (i : Z)
| UInc (amount : Z)
| UField (k : string) (create : bool) (u : update)
| UIndex (i : Z) (create : bool) (u : update)
| UBroadcast (u : update).

Inductive outcome := UOk | UErr | UPanic.
Definition ures : Type := val * outcome.

Definition set_field (k : string) (x : val) : doc → doc :=
  fix go d := match d with
  | [] => []
  | (j, y) :: d => if bool_decide (j = k) then (j, x) :: d else (j, y) :: go d
  end.
Fixpoint remove_field (k : string) (d : doc) : doc :=
  match d with [] => [] | (j, y) :: d => if bool_decide (j = k) then d else (j, y) :: remove_field k d end.

(** Machine integers: Go's conversions and additions wrap around. *)
Definition bits (t : ity) : Z := match t with TInt8 => 8 | TInt16 => 16 | TInt32 => 32 | TInt | TInt64 => 64 end.
Definition wrap (n z : Z) : Z := ((z + 2 ^ (n - 1)) mod 2 ^ n - 2 ^ (n - 1))%Z.

(** The elements of [l] up to and including index [n], past the length those beyond it, then nils
    (update.go:404-409). *)
Definition reslice (beyond l : list val) (n : nat) : list val :=
  take (S n) (l ++ beyond ++ replicate (S n) VNil).

(** $pull, update.go:246-277; None if the filter panics. *)
Fixpoint pull_from (E : env) (f : qfilter) (l : list val) : option (list val) :=
  match l with
  | [] => Some []
  | x :: l =>
      match fapply E f x with
      | None => None
      | Some b => match pull_from E f l with
                  | Some r => Some (if b then r else x :: r)
                  | None => None
                  end
      end
  end.

Definition add_to_set (E : env) (v : val) (l : list val) : list val :=
  if existsb (λ x, deep_equal E v x) l then l else l ++ [v].

(** update.go:167-447.  A nil value is nil, an absent field's value is nil too. *)
Fixpoint uapply (E : env) (U : uenv) (u : update) (cur : val) {struct u} : ures :=
  match u with
  | USet v => (* 167-187; reflect panics when the new value is nil *)
      match v with VNil => (cur, UPanic) | _ => (v, UOk) end
  | UPush v => (* 189-212 *)
      match cur with VNil => (VArr [v], UOk) | VArr l => (VArr (l ++ [v]), UOk) | _ => (cur, UErr) end
  | UAddToSet v => (* 214-244 *)
      match cur with VNil => (VArr [v], UOk) | VArr l => (VArr (add_to_set E v l), UOk) | _ => (cur, UErr) end
  | UPull f => (* 246-277 *)
      match cur with
      | VNil => (cur, UOk)
      | VArr l => match pull_from E f l with Some r => (VArr r, UOk) | None => (cur, UPanic) end
      | _ => (cur, UErr)
      end
  | UUnsetField k => (* 279-298 *)
      match cur with VNil => (cur, UOk) | VDoc d => (VDoc (remove_field k d), UOk) | _ => (cur, UErr) end
  | UUnsetElement i => (* 300-316 *)
      match cur with
      | VNil => (cur, UOk)
      | VArr l =>
          if bool_decide (i < Z.of_nat (length l))%Z
          then if bool_decide (i < 0)%Z then (cur, UPanic) else (VArr (<[Z.to_nat i := VNil]> l), UOk)
          else (cur, UOk)
      | _ => (cur, UErr)
      end
  | UInc a => (* 318-346 *)
      match cur with
      | VNil => (VInt TInt64 (wrap 64 a), UOk)
      | VFloat s x => (VFloat s (f_add E s x a), UOk)
      | VInt t z => (VInt t (wrap (bits t) (z + a)), UOk)
      | _ => (cur, UErr)
      end
  | UField k create u => (* 348-380 *)
      match cur with
      | VNil =>
          if create then match uapply E U u VNil with (x, UOk) => (VDoc [(k, x)], UOk) | (_, r) => (cur, r) end
          else (cur, UOk)
      | VDoc d =>
          match field k d with
          | Some x => let '(x', r) := uapply E U u x in (VDoc (set_field k x' d), r)
          | None =>
              if create then match uapply E U u VNil with (x, UOk) => (VDoc (d ++ [(k, x)]), UOk) | (_, r) => (cur, r) end
              else (cur, UOk)
          end
      | _ => (cur, UErr)
      end
  | UIndex i create u => (* 382-418 *)
      let at_index := λ beyond l : list val,
        if negb create && bool_decide (Z.of_nat (length l) ≤ i)%Z then (cur, UOk)
        else if bool_decide (i < 0)%Z then (cur, UPanic)
        else
          let n := Z.to_nat i in
          let l' := reslice beyond l n in
          match l' !! n with
          | None => (cur, UPanic)    (* impossible *)
          | Some x =>
              let '(x', r) := uapply E U u x in
              match r with
              | UOk => (VArr (<[n := x']> l'), UOk)
              | _ => (match cur with VArr l => VArr (<[n := x']> l) | _ => cur end, r)
              end
          end in
      match cur with
      | VNil => if create then at_index [] [] else (cur, UOk)
      | VArr l => at_index (stale U l) l
      | _ => (cur, UErr)
      end
  | UBroadcast u => (* 429-447: itemRef is always a *any here, whose element kind is Interface *)
      uapply E U u cur
  end.

(** update.go:112-125 *)
Fixpoint update_path (first : bool) (splits : list string) (u : update) : update :=
  match splits with
  | [] => u
  | s :: splits =>
      let u := update_path false splits u in
      match atoi s with
      | Some j => UIndex j true u
      | None => let u := UField s true u in if first then u else UBroadcast u
      end
  end.
(** update.go:127-148 *)
Fixpoint unset_path (first : bool) (splits : list string) : update :=
  match splits with
  | [] => UUnsetField ""      (* impossible: Split yields at least one element *)
  | [s] => match atoi s with Some i => UUnsetElement i | None => UUnsetField s end
  | s :: splits =>
      let u := unset_path false splits in
      match atoi s with
      | Some j => UIndex j false u
      | None => let u := UField s false u in if first then u else UBroadcast u
      end
  end.

(** parseupdate.go:70-212; [None] is an error. *)
Definition has_modifier (v : val) : bool := match v with VDoc d => existsb (λ e, dollar e.1) d | _ => false end.
Definition parse_one (E : env) (U : uenv) (op : string) (k : string) (v : val) : option update :=
  let at_path u := update_path true (split_dot k) u in
  if bool_decide (op = "$set"%string) then
    match normalise U v with Some w => Some (at_path (USet w)) | None => None end
  else if bool_decide (op = "$unset"%string) then Some (unset_path true (split_dot k))
  else if bool_decide (op = "$inc"%string) then match v with VInt _ z => Some (at_path (UInc z)) | _ => None end
  else if bool_decide (op = "$push"%string) then
    if has_modifier v then None else match normalise U v with Some w => Some (at_path (UPush w)) | None => None end
  else if bool_decide (op = "$addToSet"%string) then
    if has_modifier v then None else match normalise U v with Some w => Some (at_path (UAddToSet w)) | None => None end
  else if bool_decide (op = "$pull"%string) then
    if has_modifier v then None
    else match v with
         | VDoc d => match parse_filter E d with Some f => Some (at_path (UPull f)) | None => None end
         | _ => Some (at_path (UPull (equals E v)))
         end
  else None.
Definition known_op (op : string) : bool :=
  bool_decide (op ∈ ["$set"; "$unset"; "$inc"; "$push"; "$addToSet"; "$pull"]%string).
(** parseupdate.go:11-68: the updates in order.  UpdateAll (update.go:150-161) keeps that order. *)
Fixpoint parse_update (E : env) (U : uenv) (d : doc) : option (list update) :=
  match d with
  | [] => Some []
  | (op, arg) :: d =>
      if known_op op then
        match arg with
        | VDoc args =>
            match mapM (λ e, parse_one E U op e.1 e.2) args with
            | Some us => match parse_update E U d with Some us' => Some (us ++ us') | None => None end
            | None => None
            end
        | _ => None
        end
      else None
  end.
(** update.go:420-427: stops at the first failure, keeping what was done. *)
Fixpoint apply_all (E : env) (U : uenv) (us : list update) (cur : val) : ures :=
  match us with
  | [] => (cur, UOk)
  | u :: us => match uapply E U u cur with (v, UOk) => apply_all E U us v | r => r end
  end.
