(** * Exchanging one NoSQL backend for the other *)
From Verif Require Export Mongo_Model.

(** The same document for an application: every field has the same value, except that the in-memory backend may have
    lost the _id (a replacement without one drops it there, and keeps it in MongoDB). *)
Definition sim (d d' : doc) : Prop := ∀ k, field k d = field k d' ∨ k = "_id"%string ∧ field k d = None.

(** The same reply: no panic and no error on either side, and the same documents, flag or count.  Unless [exactly],
    MongoDB's count may be the smaller one. *)
Inductive same_reply (exactly : bool) : reply → reply → Prop :=
| same_nothing : same_reply exactly (Some (Nothing, false)) (Some (Nothing, false))
| same_docs l l' : Forall2 sim l l' → same_reply exactly (Some (Docs l, false)) (Some (Docs l', false))
| same_flag b : same_reply exactly (Some (Flag b, false)) (Some (Flag b, false))
| same_count n m : m ≤ n → (exactly → m = n) → same_reply exactly (Some (Count n, false)) (Some (Count m, false)).

Section portable.
  Context (E : env) (U : uenv) (C : cenv) (S : server).

  (** The in-memory backend's view of a filter. *)
  Definition selects (f d : doc) : Prop := ∃ q, parse_filter E f = Some q ∧ fapply E q (VDoc d) = Some true.
  (** The document a call on one document, or those a call on many documents, will find. *)
  Definition found (many : bool) (f : doc) (s : coll) (d : doc) : Prop :=
    if many then d ∈ items s ∧ selects f d else ∃ l1 l2, first (selects f) (items s) l1 d l2.

  (** Both query languages take the filter, and it selects the same of the documents there are. *)
  Definition filter_agrees (f : doc) (s : coll) : Prop :=
    ∃ q g, parse_filter E f = Some q ∧ s_match S f = Some g ∧
      ∀ d d', d ∈ items s → sim d d' → fapply E q (VDoc d) = Some (g d').
  (** Both update languages take the update, it does the same to the documents found, and leaves their _id. *)
  Definition update_agrees (many : bool) (f u : doc) (s : coll) : Prop :=
    ∃ us h, is_update u = true ∧ parse_update E U u = Some us ∧ s_update S u = Some h ∧
      ∀ d, found many f s d → ∃ e, update_doc E U us d = (e, UOk) ∧
        ∀ d', sim d d' → ∃ e', h d' = Some e' ∧ sim e e' ∧ field "_id" e' = field "_id" d'.

  (** The argument is a document with distinct field names, already in BSON form. *)
  Definition document (a : arg) (d : doc) : Prop := encoded a = Some d ∧ to_bson C a = Some d ∧ NoDup (keys d).
  (** The identifier it gets when inserted, which must be a new one: [used] are those of the documents so far. *)
  Definition id_of (s : coll) (d : doc) : val := default (fresh_id C (ids_used s)) (field "_id" d).
  Definition new_id (used : list val) (s : coll) (d : doc) : Prop := ∀ v, v ∈ used → s_same S v (id_of s d) = false.
  Inductive insertable : list val → coll → list arg → list val → Prop :=
  | insertable_nil used s : insertable used s [] used
  | insertable_cons used s a l d used' : document a d → new_id used s d →
      insertable (id_of s d :: used) (insert_one C s a).1 l used' → insertable used s (a :: l) used'.

  (** The fields of [d] replace those of the document found: its _id is not another one, and, for an upsert, no other
      field is left over. *)
  Definition replaces_id (f : doc) (s : coll) (d : doc) : Prop :=
    ∀ x, found false f s x → field "_id" d = None ∨ field "_id" d = field "_id" x.
  Definition covers (f : doc) (s : coll) (d : doc) : Prop :=
    ∀ x k, found false f s x → k ∈ keys x → k = "_id"%string ∨ k ∈ keys d.
  Definition upsertable (used : list val) (s : coll) (f : doc) (a : arg) (used' : list val) : Prop :=
    filter_agrees f s ∧ ∃ d, document a d ∧ replaces_id f s d ∧ covers f s d ∧
      ((∃ x, found false f s x) ∧ used' = used ∨
       none (selects f) (items s) ∧ new_id used s d ∧ used' = id_of s d :: used ∧
       (∀ k v, field k (s_implied S f) = Some v → field k d = Some v)).

  (** The calls that do the same with both backends, in a state of the in-memory one. *)
  Definition portable (used : list val) (s : coll) (c : acall) (used' : list val) : Prop :=
    match c with
    | AInsertOne a => insertable used s [a] used'
    | AInsertMany l => l ≠ [] ∧ insertable used s l used'
    | AFind many f ps m => used' = used ∧ ps = [] ∧ m = (if many then All else One) ∧ filter_agrees f s
    | ADelete _ f => used' = used ∧ filter_agrees f s
    | AUpdate many f u => used' = used ∧ filter_agrees f s ∧ update_agrees many f u s
    | AUpsert f a => upsertable used s f a used'
    | AUpsertID id a => upsertable used s [("_id"%string, id)] a used'
    | AReplaceOne f a => used' = used ∧ filter_agrees f s ∧
        ∃ d, document a d ∧ is_update d = false ∧ replaces_id f s d
    | AReplaceMany _ _ => False
    end.
  Inductive portable_all : list val → coll → list acall → Prop :=
  | portable_nil used s : portable_all used s []
  | portable_cons used s c cs used' : portable used s c used' →
      portable_all used' (aexec E U C s c).1 cs → portable_all used s (c :: cs).

  (** Every update changes each document it finds in some field. *)
  Definition changing (s : coll) (c : acall) : Prop :=
    match c with
    | AUpdate many f u => ∀ us d, parse_update E U u = Some us → found many f s d →
        ∃ k, k ≠ "_id"%string ∧ field k (update_doc E U us d).1 ≠ field k d
    | _ => True
    end.
  Inductive changing_all : coll → list acall → Prop :=
  | changing_nil s : changing_all s []
  | changing_cons s c cs : changing s c → changing_all (aexec E U C s c).1 cs → changing_all s (c :: cs).
End portable.

(** The query does not look at the document's _id. *)
Fixpoint avoids_id (q : query) : Prop :=
  let all := fix go (qs : list query) := match qs with [] => True | q :: qs => avoids_id q ∧ go qs end in
  let alls := fix go (qss : list (list query)) := match qss with [] => True | qs :: qss => all qs ∧ go qss end in
  match q with
  | QLit p _ | QArr p _ | QOps p _ | QAll p _ | QElem p _ => head p ≠ Some (Key "_id")
  | QAnd qss | QOr qss | QNor qss => alls qss
  | QNot qs => all qs
  end.
