(** * A collection as an ordered list of documents *)
From Verif Require Export Update_Spec Coll_Model.

(** Calls with queries and updates as abstract syntax. *)
Inductive call :=
| CInsertOne (a : arg) | CInsertMany (l : list arg)
| CFindOne (qs : list query) | CFindMany (qs : list query)
| CDeleteOne (qs : list query) | CDeleteMany (qs : list query)
| CUpdateOne (qs : list query) (us : list upd) | CUpdateMany (qs : list query) (us : list upd)
| CUpsert (qs : list query) (a : arg)
| CReplaceOne (qs : list query) (a : arg) | CReplaceMany (qs : list query) (l : list arg).
Definition op_of (c : call) : op :=
  let q := map query_bson in let u := map upd_bson in
  match c with
  | CInsertOne a => InsertOne a | CInsertMany l => InsertMany l
  | CFindOne qs => FindOne (q qs) | CFindMany qs => FindMany (q qs)
  | CDeleteOne qs => DeleteOne (q qs) | CDeleteMany qs => DeleteMany (q qs)
  | CUpdateOne qs us => UpdateOne (q qs) (u us) | CUpdateMany qs us => UpdateMany (q qs) (u us)
  | CUpsert qs a => Upsert (q qs) a
  | CReplaceOne qs a => ReplaceOne (q qs) a | CReplaceMany qs l => ReplaceMany (q qs) l
  end.
Definition wf_call (E : env) (U : uenv) (c : call) : Prop :=
  match c with
  | CInsertOne _ | CInsertMany _ => True
  | CFindOne qs | CFindMany qs | CDeleteOne qs | CDeleteMany qs
  | CUpsert qs _ | CReplaceOne qs _ | CReplaceMany qs _ => Forall (wf_query E) qs
  | CUpdateOne qs us | CUpdateMany qs us => Forall (wf_query E) qs ∧ Forall (wf_upd E U) us
  end.

(** [r] is the sublist, in order, of the elements of [l] with property [P]. *)
Inductive chosen (P : doc → Prop) : list doc → list doc → Prop :=
| chosen_nil : chosen P [] []
| chosen_in d l r : P d → chosen P l r → chosen P (d :: l) (d :: r)
| chosen_out d l r : ¬ P d → chosen P l r → chosen P (d :: l) r.
(** [d] is the first element with property [P]: [l1] comes before and [l2] after it. *)
Definition first (P : doc → Prop) (l l1 : list doc) (d : doc) (l2 : list doc) : Prop :=
  l = l1 ++ d :: l2 ∧ (∀ x, x ∈ l1 → ¬ P x) ∧ P d.
Definition none (P : doc → Prop) (l : list doc) : Prop := ∀ x, x ∈ l → ¬ P x.

(** The document an argument stands for when inserted. *)
Definition encoded (a : arg) : option doc := match a with ABson d => Some d | AValue e => e end.
(** Inserting appends the document, with a new identifier in front if it had none. *)
Definition inserted (C : cenv) (s : coll) (d : doc) (s' : coll) : Prop :=
  ("_id"%string ∈ keys d ∧ items s' = items s ++ [d] ∧ ids_used s' = ids_used s) ∨
  ("_id"%string ∉ keys d ∧ items s' = items s ++ [("_id"%string, fresh_id C (ids_used s)) :: d] ∧ ids_used s' = S (ids_used s)).
Inductive inserts (C : cenv) : coll → list arg → coll → bool → Prop :=
| inserts_done s : inserts C s [] s false
| inserts_stop s a l : encoded a = None → inserts C s (a :: l) s true
| inserts_one s a l d s' s'' e : encoded a = Some d → inserted C s d s' → inserts C s' l s'' e → inserts C s (a :: l) s'' e.

(** The matching documents are updated in order, up to the first whose update fails. *)
Inductive updates (P : doc → Prop) (R : doc → doc → outcome → Prop) : list doc → list doc → nat → outcome → Prop :=
| upd_nil : updates P R [] [] 0 UOk
| upd_skip d l l' n o : ¬ P d → updates P R l l' n o → updates P R (d :: l) (d :: l') n o
| upd_hit d d' l l' n o : P d → R d d' UOk → updates P R l l' n o → updates P R (d :: l) (d' :: l') (S n) o
| upd_stop d d' l o : P d → R d d' o → o ≠ UOk → updates P R (d :: l) (d' :: l) 0 o.
(** The first matching documents are replaced, in order, one for each replacement; one that cannot be
    encoded ends this and leaves an empty document behind. *)
Inductive replaces (C : cenv) (P : doc → Prop) : list arg → list doc → list doc → nat → bool → Prop :=
| rep_done l : replaces C P [] l l 0 false
| rep_nil a rs : replaces C P (a :: rs) [] [] 0 false
| rep_skip a rs d l l' n e : ¬ P d → replaces C P (a :: rs) l l' n e → replaces C P (a :: rs) (d :: l) (d :: l') n e
| rep_hit a rs d d' l l' n e : P d → to_bson C a = Some d' → replaces C P rs l l' n e → replaces C P (a :: rs) (d :: l) (d' :: l') (S n) e
| rep_stop a rs d l : P d → to_bson C a = None → replaces C P (a :: rs) (d :: l) ([] :: l) 0 true.

Definition holds (E : env) (qs : list query) (d : doc) : Prop := sats E qs (VDoc d).
Definition updated (E : env) (U : uenv) (us : list upd) (d d' : doc) (o : outcome) : Prop :=
  run_update E U (map upd_bson us) d = Some (VDoc d', o).
Definition same (s s' : coll) : Prop := s' = s.

(** What each call returns and does. *)
Definition meets (E : env) (U : uenv) (C : cenv) (s : coll) (c : call) (r : reply) (s' : coll) : Prop :=
  let l := items s in
  let keep := ids_used s' = ids_used s in
  match c with
  | CInsertOne a => ∃ e, r = Some (Nothing, e) ∧ inserts C s [a] s' e
  | CInsertMany rs => ∃ e, r = Some (Nothing, e) ∧ inserts C s rs s' e
  | CFindOne qs => same s s' ∧
      (none (holds E qs) l ∧ r = Some (Docs [], false) ∨
       ∃ l1 d l2, first (holds E qs) l l1 d l2 ∧ r = Some (Docs [d], false))
  | CFindMany qs => same s s' ∧ ∃ ds, chosen (holds E qs) l ds ∧ r = Some (Docs ds, false)
  | CDeleteOne qs => r = Some (Nothing, false) ∧ keep ∧
      (none (holds E qs) l ∧ items s' = l ∨ ∃ l1 d l2, first (holds E qs) l l1 d l2 ∧ items s' = l1 ++ l2)
  | CDeleteMany qs => r = Some (Nothing, false) ∧ keep ∧ chosen (λ d, ¬ holds E qs d) l (items s')
  | CUpdateOne qs us => keep ∧
      (none (holds E qs) l ∧ items s' = l ∧ r = Some (Count 0, false) ∨
       ∃ l1 d l2 d' o, first (holds E qs) l l1 d l2 ∧ updated E U us d d' o ∧ items s' = l1 ++ d' :: l2 ∧ r = ended 1 o)
  | CUpdateMany qs us => keep ∧ ∃ n o, updates (holds E qs) (updated E U us) l (items s') n o ∧ r = ended n o
  | CUpsert qs a =>
      (none (holds E qs) l ∧ ∃ e, inserts C s [a] s' e ∧ r = Some (Flag false, e)) ∨
      keep ∧ ∃ l1 d l2, first (holds E qs) l l1 d l2 ∧
        ((∃ d', to_bson C a = Some d' ∧ items s' = l1 ++ d' :: l2 ∧ r = Some (Flag true, false)) ∨
         to_bson C a = None ∧ items s' = l1 ++ [] :: l2 ∧ r = Some (Flag true, true))
  | CReplaceOne qs a => keep ∧
      (none (holds E qs) l ∧ items s' = l ∧ r = Some (Count 0, false) ∨
       ∃ l1 d l2, first (holds E qs) l l1 d l2 ∧
        ((∃ d', to_bson C a = Some d' ∧ items s' = l1 ++ d' :: l2 ∧ r = Some (Count 1, false)) ∨
         to_bson C a = None ∧ items s' = l1 ++ [] :: l2 ∧ r = Some (Count 1, true)))
  | CReplaceMany qs rs => keep ∧ ∃ n e, replaces C (holds E qs) rs l (items s') n e ∧ r = Some (Count n, e)
  end.
(** A history: every call meets its specification. *)
Inductive meets_all (E : env) (U : uenv) (C : cenv) : coll → list call → list reply → coll → Prop :=
| meets_nil s : meets_all E U C s [] [] s
| meets_cons s c cs r rs s' s'' : meets E U C s c r s' → meets_all E U C s' cs rs s'' → meets_all E U C s (c :: cs) (r :: rs) s''.
