(** * Model of a NoSQL collection, runtime/plugins/simplenosqldb/nosqldb.go

    A collection is its list of documents.  Documents are taken not to share storage with one another or
    with the caller's values, and a cursor to be read before the collection is next changed. *)
From Verif Require Export Update_Model.

(** What is outside the model: the ObjectIDs handed out, and BSON encoding of the documents passed in. *)
Record cenv := CEnv {
  fresh_id : nat → val;              (* the n-th primitive.NewObjectID() *)
  reencode : doc → option doc }.     (* toBson of a bson.D, 340-348; None if it fails *)

(** A document argument: a bson.D, or another Go value, of which only its BSON form (if any) matters. *)
Inductive arg := ABson (d : doc) | AValue (encoded : option doc).

Record coll := Coll { items : list doc; ids_used : nat }.

Inductive op :=
| InsertOne (a : arg) | InsertMany (l : list arg)
| FindOne (f : doc) | FindMany (f : doc)
| DeleteOne (f : doc) | DeleteMany (f : doc)
| UpdateOne (f u : doc) | UpdateMany (f u : doc)
| Upsert (f : doc) (a : arg) | UpsertID (id : val) (a : arg)
| ReplaceOne (f : doc) (a : arg) | ReplaceMany (f : doc) (l : list arg).

(** What a call returns: documents (through the cursor), a count or a flag, and whether there was an error.
    [None] in place of a pair of these means that the call panicked. *)
Inductive value := Nothing | Docs (l : list doc) | Count (n : nat) | Flag (b : bool).
Definition reply : Type := option (value * bool).      (* true: error *)

(** 340-348 *)
Definition to_bson (C : cenv) (a : arg) : option doc := match a with ABson d => reencode C d | AValue e => e end.
Definition has_id (d : doc) : bool := existsb (λ e, bool_decide (e.1 = "_id"%string)) d.

(** 99-121; None if the document cannot be encoded. *)
Definition insert_one (C : cenv) (s : coll) (a : arg) : coll * bool :=
  match (match a with ABson d => Some d | AValue e => e end) with
  | None => (s, true)
  | Some d =>
      if has_id d then (Coll (items s ++ [d]) (ids_used s), false)
      else (Coll (items s ++ [("_id"%string, fresh_id C (ids_used s)) :: d]) (S (ids_used s)), false)
  end.
(** 123-131 *)
Fixpoint insert_many (C : cenv) (s : coll) (l : list arg) : coll * bool :=
  match l with
  | [] => (s, false)
  | a :: l => let '(s', e) := insert_one C s a in if e then (s', true) else insert_many C s' l
  end.

(** The position of the first document the filter accepts: 143-150, 192-197, 241-243, 313-318.
    [None]: the filter panicked first. *)
Fixpoint first_match (E : env) (f : qfilter) (l : list doc) : option (option nat) :=
  match l with
  | [] => Some None
  | d :: l =>
      match fapply E f (VDoc d) with
      | None => None
      | Some true => Some (Some 0)
      | Some false => match first_match E f l with Some (Some n) => Some (Some (S n)) | r => r end
      end
  end.
(** 172-184 *)
Fixpoint all_matches (E : env) (f : qfilter) (l : list doc) : option (list doc) :=
  match l with
  | [] => Some []
  | d :: l =>
      match fapply E f (VDoc d), all_matches E f l with
      | Some b, Some r => Some (if b then d :: r else r)
      | _, _ => None
      end
  end.
(** 206-220: the loop at position i with [begin] = copyrangebegin and the slice built so far.  [all] is
    db.items, and [l] what is left of it. *)
Definition slice {A} (l : list A) (from to : nat) : list A := drop from (take to l).
Fixpoint delete_loop (E : env) (f : qfilter) (all l : list doc) (i begin : nat) (new : list doc) : option (list doc) :=
  match l with
  | [] => Some (if bool_decide (begin < length all) then new ++ slice all begin (length all) else new)
  | d :: l =>
      match fapply E f (VDoc d) with
      | None => None
      | Some true => delete_loop E f all l (S i) (S i) (if bool_decide (begin < i) then new ++ slice all begin i else new)
      | Some false => delete_loop E f all l (S i) begin new
      end
  end.

(** updateOp.Apply(&db.items[i]): an update leaves a document at the root. *)
Definition update_doc (E : env) (U : uenv) (us : list update) (d : doc) : doc * outcome :=
  match apply_all E U us (VDoc d) with (VDoc d', o) => (d', o) | (_, o) => (d, o) end.
(** 268-287: the items from some position on, how many were updated, and how it ended *)
Fixpoint update_loop (E : env) (U : uenv) (f : qfilter) (us : list update) (l : list doc) : list doc * nat * outcome :=
  match l with
  | [] => ([], 0, UOk)
  | d :: l =>
      match fapply E f (VDoc d) with
      | None => (d :: l, 0, UPanic)
      | Some true =>
          match update_doc E U us d with
          | (d', UOk) => let '(l', n, o) := update_loop E U f us l in (d' :: l', S n, o)
          | (d', o) => (d' :: l, 0, o)
          end
      | Some false => let '(l', n, o) := update_loop E U f us l in (d :: l', n, o)
      end
  end.
(** 308-320; the reply's count, and whether there was an error (None: panic) *)
Definition replace_one (E : env) (C : cenv) (s : coll) (f : doc) (a : arg) : coll * option (nat * bool) :=
  match parse_filter E f with
  | None => (s, Some (0, true))
  | Some q =>
      match first_match E q (items s) with
      | None => (s, None)
      | Some None => (s, Some (0, false))
      | Some (Some i) =>
          match to_bson C a with
          | Some d => (Coll (<[i := d]> (items s)) (ids_used s), Some (1, false))
          | None => (Coll (<[i := []]> (items s)) (ids_used s), Some (1, true))
          end
      end
  end.
(** 327-337 *)
Fixpoint replace_loop (E : env) (C : cenv) (f : qfilter) (l : list doc) (rs : list arg) : list doc * nat * outcome :=
  match rs with
  | [] => (l, 0, UOk)
  | a :: rs' =>
      match l with
      | [] => ([], 0, UOk)
      | d :: l =>
          match fapply E f (VDoc d) with
          | None => (d :: l, 0, UPanic)
          | Some true =>
              match to_bson C a with
              | Some d' => let '(l', n, o) := replace_loop E C f l rs' in (d' :: l', S n, o)
              | None => ([] :: l, 0, UErr)
              end
          | Some false => let '(l', n, o) := replace_loop E C f l rs in (d :: l', n, o)
          end
      end
  end.
(** 291-297 *)
Definition upsert (E : env) (C : cenv) (s : coll) (f : doc) (a : arg) : coll * reply :=
  match replace_one E C s f a with
  | (s', None) => (s', None)
  | (s', Some (n, e)) =>
      if (Nat.eqb n 1 || e)%bool then (s', Some (Flag true, e))
      else let '(s'', e) := insert_one C s' a in (s'', Some (Flag false, e))
  end.

Definition ended (n : nat) (o : outcome) : reply :=
  match o with UOk => Some (Count n, false) | UErr => Some (Count n, true) | UPanic => None end.

Definition exec (E : env) (U : uenv) (C : cenv) (s : coll) (o : op) : coll * reply :=
  match o with
  | InsertOne a => let '(s', e) := insert_one C s a in (s', Some (Nothing, e))
  | InsertMany l => let '(s', e) := insert_many C s l in (s', Some (Nothing, e))
  | FindOne f => (* 133-152 *)
      match parse_filter E f with
      | None => (s, Some (Nothing, true))
      | Some q => match first_match E q (items s) with
                  | None => (s, None)
                  | Some None => (s, Some (Docs [], false))
                  | Some (Some i) => (s, Some (Docs (take 1 (drop i (items s))), false))
                  end
      end
  | FindMany f => (* 163-185 *)
      match parse_filter E f with
      | None => (s, Some (Nothing, true))
      | Some q => match all_matches E q (items s) with None => (s, None) | Some l => (s, Some (Docs l, false)) end
      end
  | DeleteOne f => (* 187-199 *)
      match parse_filter E f with
      | None => (s, Some (Nothing, true))
      | Some q => match first_match E q (items s) with
                  | None => (s, None)
                  | Some None => (s, Some (Nothing, false))
                  | Some (Some i) => (Coll (take i (items s) ++ drop (S i) (items s)) (ids_used s), Some (Nothing, false))
                  end
      end
  | DeleteMany f => (* 201-222 *)
      match parse_filter E f with
      | None => (s, Some (Nothing, true))
      | Some q => match delete_loop E q (items s) (items s) 0 0 [] with
                  | None => (s, None)
                  | Some l => (Coll l (ids_used s), Some (Nothing, false))
                  end
      end
  | UpdateOne f u => (* 224-251 *)
      match parse_filter E f, parse_update E U u with
      | Some q, Some us =>
          match first_match E q (items s) with
          | None => (s, None)
          | Some None => (s, Some (Count 0, false))
          | Some (Some i) =>
              match items s !! i with
              | None => (s, None)     (* impossible *)
              | Some d => let '(d', r) := update_doc E U us d in
                          (Coll (<[i := d']> (items s)) (ids_used s), ended 1 r)
              end
          end
      | _, _ => (s, Some (Count 0, true))
      end
  | UpdateMany f u => (* 253-289 *)
      match parse_filter E f, parse_update E U u with
      | Some q, Some us => let '(l, n, r) := update_loop E U q us (items s) in (Coll l (ids_used s), ended n r)
      | _, _ => (s, Some (Count 0, true))
      end
  | Upsert f a => upsert E C s f a
  | UpsertID id a => upsert E C s [("_id"%string, id)] a      (* 299-306 *)
  | ReplaceOne f a => (* 308-320 *)
      let '(s', r) := replace_one E C s f a in
      (s', match r with Some (n, e) => Some (Count n, e) | None => None end)
  | ReplaceMany f rs => (* 322-338; the parse error at 325 is swallowed *)
      match parse_filter E f with
      | None => (s, Some (Count 0, false))
      | Some q => let '(l, n, r) := replace_loop E C q (items s) rs in (Coll l (ids_used s), ended n r)
      end
  end.

(** A history of calls on a new collection (nosqldb.go:41-68), with the replies. *)
Fixpoint exec_all (E : env) (U : uenv) (C : cenv) (s : coll) (os : list op) : coll * list reply :=
  match os with
  | [] => (s, [])
  | o :: os => let '(s', r) := exec E U C s o in let '(s'', rs) := exec_all E U C s' os in (s'', r :: rs)
  end.
Definition empty_coll : coll := Coll [] 0.
