(** * Model of the MongoDB backend, runtime/plugins/mongodb/nosqldb.go

    The adapter translates each call of the NoSQL interface (runtime/core/backend/nosqldb.go) into calls of the
    MongoDB driver.  The server's collection is its list of documents in natural order.  What driver and server do is
    taken from their documentation: the comments say where. *)
From Verif Require Export Coll_Spec.

(** What is outside the model: the server's query and update languages, and how it compares identifiers. *)
Record server := Server {
  s_match : doc → option (doc → bool);             (* a filter; None: rejected *)
  s_update : doc → option (doc → option doc);      (* an update; None: rejected, or not applicable to a document *)
  s_project : doc → doc → doc;                     (* a projection applied to a result *)
  s_same : val → val → bool;                       (* equal as _id, so that the second insertion is refused *)
  s_implied : doc → doc;                           (* the fields that an upsert takes from the filter's equalities *)
  s_order : doc → doc }.                           (* the order in which $set handles fields (by name, since 5.0) *)

(** A call of the interface.  Reading results is part of it: [One] or [All] on the cursor (backend/nosqldb.go:18-29). *)
Inductive cmethod := One | All.
Inductive acall :=
| AInsertOne (a : arg) | AInsertMany (l : list arg)
| AFind (many : bool) (f : doc) (ps : list doc) (m : cmethod)
| ADelete (many : bool) (f : doc)
| AUpdate (many : bool) (f u : doc)
| AUpsert (f : doc) (a : arg) | AUpsertID (id : val) (a : arg)
| AReplaceOne (f : doc) (a : arg) | AReplaceMany (f : doc) (l : list arg).

(** ** The in-memory backend, simplenosqldb/nosqldb.go: projections are ignored (133, 163), and both methods of the
    cursor work on any result (64-95). *)
Definition read (m : cmethod) (r : reply) : reply :=
  match r, m with
  | Some (Docs l, e), One => Some (Docs (take 1 l), e)
  | _, _ => r
  end.
Definition aexec (E : env) (U : uenv) (C : cenv) (s : coll) (c : acall) : coll * reply :=
  match c with
  | AInsertOne a => exec E U C s (InsertOne a)
  | AInsertMany l => exec E U C s (InsertMany l)
  | AFind many f _ m => let '(s', r) := exec E U C s (if many then FindMany f else FindOne f) in (s', read m r)
  | ADelete many f => exec E U C s (if many then DeleteMany f else DeleteOne f)
  | AUpdate many f u => exec E U C s (if many then UpdateMany f u else UpdateOne f u)
  | AUpsert f a => exec E U C s (Upsert f a)
  | AUpsertID id a => exec E U C s (UpsertID id a)
  | AReplaceOne f a => exec E U C s (ReplaceOne f a)
  | AReplaceMany f l => exec E U C s (ReplaceMany f l)
  end.

(** ** The MongoDB server *)
(** The _id is stored as the first field. *)
Definition id_first (d : doc) : doc :=
  match field "_id" d with Some v => ("_id"%string, v) :: remove_field "_id" d | None => d end.
(** A document for insertion; the driver (or the server, for an upsert) adds an identifier if there is none. *)
Definition stored (C : cenv) (n : nat) (d : doc) : doc * nat :=
  if has_id d then (id_first d, n) else (("_id"%string, fresh_id C n) :: d, S n).
Definition has_same_id (S : server) (l : list doc) (d : doc) : bool :=
  existsb (λ x, match field "_id" x, field "_id" d with Some v, Some w => s_same S v w | _, _ => false end) l.
(** Insertion; an error for a duplicate _id. *)
Definition m_insert (C : cenv) (S : server) (s : coll) (d : doc) : coll * bool :=
  let '(d', n) := stored C (ids_used s) d in
  if has_same_id S (items s) d' then (s, true) else (Coll (items s ++ [d']) n, false).
(** Ordered insertion of several documents stops at the first error.  Identifiers that the driver made for
    documents after it are not counted. *)
Fixpoint m_inserts (C : cenv) (S : server) (s : coll) (l : list doc) : coll * bool :=
  match l with
  | [] => (s, false)
  | d :: l => let '(s', e) := m_insert C S s d in if e then (s', true) else m_inserts C S s' l
  end.
Fixpoint m_first (g : doc → bool) (l : list doc) : option nat :=
  match l with [] => None | d :: l => if g d then Some 0 else match m_first g l with Some n => Some (S n) | None => None end end.
(** Exact equality, for ModifiedCount (an update that leaves the document as it was is not counted) and for the
    immutability of _id. *)
Definition exact_env : env := Env Z.eqb Z.ltb Z.leb (λ z, z) (λ _ x _, x) (λ _, true) (λ _ _, true).
Definition same_val (a b : val) : bool := deep_equal exact_env a b.
Definition keeps_id (d e : doc) : bool :=
  match field "_id" d, field "_id" e with Some v, Some w => same_val v w | None, None => true | _, _ => false end.
(** An update of one document: an error if it cannot be applied or would change the _id.  The flag: modified. *)
Definition m_apply (h : doc → option doc) (d : doc) : option (doc * bool) :=
  match h d with
  | Some e => if keeps_id d e then Some (e, negb (same_val (VDoc d) (VDoc e))) else None
  | None => None
  end.
(** The documents after an update of many, the number modified, and whether there was an error, which ends it. *)
Fixpoint m_update_loop (g : doc → bool) (h : doc → option doc) (l : list doc) : list doc * nat * bool :=
  match l with
  | [] => ([], 0, false)
  | d :: l =>
      if g d then
        match m_apply h d with
        | Some (e, b) => let '(l', n, err) := m_update_loop g h l in (e :: l', (if b then S n else n), err)
        | None => (d :: l, 0, true)
        end
      else let '(l', n, err) := m_update_loop g h l in (d :: l', n, err)
  end.
(** {$set: d} for a document whose keys are plain names: no dots, no $.  Others are paths to the server, which is
    not modelled. *)
Definition set_or_add (x : doc) (e : string * val) : doc :=
  match field e.1 x with Some _ => set_field e.1 e.2 x | None => x ++ [e] end.
Definition m_set (S : server) (d x : doc) : doc := foldl set_or_add x (s_order S d).
(** A replacement keeps the _id of the document replaced; one with another _id is refused. *)
Definition m_replacement (x d : doc) : option doc :=
  match field "_id" x, field "_id" d with
  | Some v, Some w => if same_val v w then Some (id_first d) else None
  | Some v, None => Some (("_id"%string, v) :: d)
  | None, _ => Some (id_first d)      (* every stored document has one *)
  end.
(** The driver's checks: an update must be non-empty and begin with an operator, a replacement must not. *)
Definition is_update (u : doc) : bool := match u with [] => false | (k, _) :: _ => dollar k end.

(** ** The adapter, mongodb/nosqldb.go *)
(** 155-164 *)
Definition m_upsert (C : cenv) (S : server) (s : coll) (f : doc) (a : arg) : coll * reply :=
  match to_bson C a, s_match S f with
  | Some d, Some g =>
      match m_first g (items s) with
      | Some i =>
          match items s !! i with
          | Some x =>
              match m_apply (λ x, Some (m_set S d x)) x with
              | Some (e, _) => (Coll (<[i := e]> (items s)) (ids_used s), Some (Flag true, false))
              | None => (s, Some (Flag false, true))
              end
          | None => (s, None)      (* impossible *)
          end
      | None =>
          let '(s', e) := m_insert C S s (m_set S d (s_implied S f)) in (s', Some (Flag false, e))
      end
  | _, _ => (s, Some (Flag false, true))
  end.
(** 78-132 with the cursor, 193-218. *)
Definition m_find (S : server) (many : bool) (l : list doc) (f : doc) (ps : list doc) (m : cmethod) : reply :=
  if bool_decide (1 < length ps) then Some (Nothing, true) else
  match s_match S f with
  | None => Some (Nothing, true)
  | Some g =>
      let proj := match ps with p :: _ => map (s_project S p) | [] => id end in
      match many, m with
      | true, All => Some (Docs (proj (List.filter g l)), false)
      | false, One => Some (Docs (proj (match m_first g l with Some i => take 1 (drop i l) | None => [] end)), false)
      | _, _ => Some (Nothing, true)      (* 204-205, 215-216 *)
      end
  end.
Definition mexec (C : cenv) (S : server) (s : coll) (c : acall) : coll * reply :=
  match c with
  | AInsertOne a => (* 64-68 *)
      match to_bson C a with
      | Some d => let '(s', e) := m_insert C S s d in (s', Some (Nothing, e))
      | None => (s, Some (Nothing, true))
      end
  | AInsertMany l => (* 71-75; the driver refuses an empty slice, and encodes all documents before it sends any *)
      match l, mapM (to_bson C) l with
      | _ :: _, Some ds => let '(s', e) := m_inserts C S s ds in (s', Some (Nothing, e))
      | _, _ => (s, Some (Nothing, true))
      end
  | AFind many f ps m => (s, m_find S many (items s) f ps m)
  | ADelete many f => (* 49-61 *)
      match s_match S f with
      | None => (s, Some (Nothing, true))
      | Some g =>
          if many then (Coll (List.filter (λ d, negb (g d)) (items s)) (ids_used s), Some (Nothing, false))
          else (Coll (match m_first g (items s) with Some i => delete i (items s) | None => items s end) (ids_used s),
                Some (Nothing, false))
      end
  | AUpdate many f u => (* 135-152; the reply is ModifiedCount *)
      match (if is_update u then s_update S u else None), s_match S f with
      | Some h, Some g =>
          if many then
            let '(l, n, e) := m_update_loop g h (items s) in
            (Coll l (ids_used s), Some (Count (if e : bool then 0 else n), e))
          else
            match m_first g (items s) with
            | None => (s, Some (Count 0, false))
            | Some i =>
                match items s !! i with
                | Some d =>
                    match m_apply h d with
                    | Some (e, b) => (Coll (<[i := e]> (items s)) (ids_used s), Some (Count (if b then 1 else 0), false))
                    | None => (s, Some (Count 0, true))
                    end
                | None => (s, None)      (* impossible *)
                end
            end
      | _, _ => (s, Some (Count 0, true))
      end
  | AUpsert f a => m_upsert C S s f a
  | AUpsertID id a => m_upsert C S s [("_id"%string, id)] a      (* 167-170 *)
  | AReplaceOne f a => (* 173-180; MatchedCount *)
      match to_bson C a, s_match S f with
      | Some d, Some g =>
          if is_update d then (s, Some (Count 0, true)) else
          match m_first g (items s) with
          | None => (s, Some (Count 0, false))
          | Some i =>
              match items s !! i with
              | Some x =>
                  match m_replacement x d with
                  | Some e => (Coll (<[i := e]> (items s)) (ids_used s), Some (Count 1, false))
                  | None => (s, Some (Count 0, true))
                  end
              | None => (s, None)      (* impossible *)
              end
          end
      | _, _ => (s, Some (Count 0, true))
      end
  | AReplaceMany _ _ => (s, Some (Count 0, true))      (* 183-185 *)
  end.

(** Histories on a new collection. *)
Fixpoint runs {A} (step : coll → A → coll * reply) (s : coll) (cs : list A) : coll * list reply :=
  match cs with
  | [] => (s, [])
  | c :: cs => let '(s', r) := step s c in let '(s'', rs) := runs step s' cs in (s'', r :: rs)
  end.
