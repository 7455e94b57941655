(** * Specification vocabulary for the cache *)
From Verif Require Import Cache_Model.

(** The value of key [k] after a history, most recent call first: the last write decides. *)
Fixpoint last_in (k : string) (kvs : list (string * gval)) : option gval :=
  match kvs with
  | [] => None
  | (k', v) :: kvs' => match last_in k kvs' with
                       | Some w => Some w
                       | None => if bool_decide (k' = k) then Some v else None
                       end
  end.
Fixpoint current (rh : list cop) (k : string) : option gval :=
  match rh with
  | [] => None
  | OpPut k' v :: rh' => if bool_decide (k' = k) then Some v else current rh' k
  | OpDel k' :: rh' => if bool_decide (k' = k) then None else current rh' k
  | OpMset ks vs :: rh' =>
      if bool_decide (length ks = length vs) then
        match last_in k (zip ks vs) with Some v => Some v | None => current rh' k end
      else current rh' k
  | OpIncr k' :: rh' =>
      if bool_decide (k' = k) then
        match current rh' k with
        | None => Some (VInt 1)
        | Some (VInt z) => Some (VInt (wrap64 (z + 1)))
        | Some v => Some v
        end
      else current rh' k
  | (OpGet _ _ | OpMget _ _) :: rh' => current rh' k
  end.

(** Keys a call writes. *)
Definition writes (o : cop) : list string :=
  match o with
  | OpPut k _ | OpDel k | OpIncr k => [k]
  | OpMset ks _ => ks
  | OpGet _ _ | OpMget _ _ => []
  end.

(** Increments not yet completed by a thread. *)
Definition pending (t : ithread) : nat := match t with ThReady n => n | ThRead _ n => S n end.
Definition total_pending (ts : list ithread) : Z := Z.of_nat (sum_list_with pending ts).
Definition all_ready (ts : list ithread) : Prop :=
  ∀ t, t ∈ ts → match t with ThReady _ => True | ThRead _ _ => False end.
