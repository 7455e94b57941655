(** * Model of the sock shop's catalogue: examples/sockshop/workflow/catalogue/catalogueservice.go

    A call is a sequence of SQL statements, which interleave with those of other calls.  Simplified: the columns of a sock other than its id are one
    text (catalogueservice.go:44-55); names and ids are never too long for their columns, are compared exactly, and GROUP_CONCAT is not cut off;
    rows come in the order of their tables; integers do not overflow.  The database keeps the primary key of the table sock; whether it also keeps
    the foreign keys (catalogueservice.go:341-348: MySQL does; SQLite, opened as in sqlitereldb/reldb.go:25 without _foreign_keys, does not) is a parameter. *)
From stdpp Require Export strings gmap.
From Coq Require Export ZArith.
From stdpp Require Export list.
Set Default Proof Using "Type".

(** catalogueservice.go:319-348: the tables sock, tag, sock_tag and the next automatic tag id *)
Record db := Db { d_socks : list (string * string); d_tags : list (nat * string); d_links : list (string * nat); d_next : nat }.
(** catalogueservice.go:43-55: id, other columns, tags *)
Definition sock : Type := string * string * list string.
Inductive reply := Ok | Added (id : string) | Socks (l : list sock) | Num (n : nat) | One (s : sock) | Names (l : list string) | Failed | Panic.
Inductive op :=
  | AddSock (id uuid info : string) (tags : list string) (* uuid: what uuid.NewString gives if asked *)
  | DeleteSock (id : string)
  | AddTags (tags : list string)
  | List (tags : list string) (order : string) (page size : Z)
  | Count (tags : list string)
  | Get (id : string)
  | Tags.
Inductive prog :=
  | Ret (r : reply)
  | DelLinks (s : string) (p : prog)
  | DelSock (s : string) (p : prog)
  | InsSock (s info : string) (p : prog)
  | SelTags (f : list (nat * string) → prog)
  | InsTag (n : string) (f : nat → prog)
  | InsLink (s : string) (i : nat) (p : prog)
  | Query (q : db → reply).

(** ** Queries *)
(** catalogueservice.go:69-81, 102-110: the rows of the joins, with the name from alltags and the name from tag *)
Definition rows (d : db) : list (string * string * string * string) :=
  s ← d_socks d; l ← filter (λ l, l.1 = s.1) (d_links d); a ← filter (λ a, a.1 = l.2) (d_tags d);
  l' ← filter (λ l, l.1 = s.1) (d_links d); b ← filter (λ b, b.1 = l'.2) (d_tags d); [(s.1, s.2, a.2, b.2)].
(** catalogueservice.go:102-110, 141-149: WHERE tag.name=? OR ...; no condition without tags *)
Definition wanted (tags : list string) (n : string) : Prop := tags = [] ∨ n ∈ tags.
Global Instance wanted_dec tags n : Decision (wanted tags n).
Proof. unfold wanted. apply _. Defined.
(** strings.Split by commas, catalogueservice.go:127, 181 *)
Fixpoint commas (s : string) : list string :=
  match s with
  | EmptyString => [""]
  | String c s => if decide (c = Ascii.ascii_of_nat 44) then "" :: commas s else match commas s with x :: l => String c x :: l | [] => [] end
  end.
(** GROUP BY sock.sock_id with GROUP_CONCAT(DISTINCT alltags.name), catalogueservice.go:76, 112 *)
Definition group (rs : list (string * string * string * string)) : list sock :=
  (λ s, (s.1, s.2, commas (String.concat "," (remove_dups (((λ r, r.1.2) <$> filter (λ r, r.1.1.1 = s.1) rs))))))
    <$> remove_dups ((λ r, (r.1.1.1, r.1.1.2)) <$> rs).
(** catalogueservice.go:96-128; lines 114-117 give the order as an argument, and ORDER BY a constant does not order *)
Definition list_all (tags : list string) (order : string) (d : db) : list sock := group (filter (λ r, wanted tags r.2) (rows d)).
(** catalogueservice.go:255-268; None: a slice with bad bounds panics *)
Definition cut (socks : list sock) (page size : Z) : option (list sock) :=
  (if (page =? 0) || (size =? 0) then Some []
   else
     let start := page * size - size in
     if Z.of_nat (length socks) <? start then Some []
     else
       let stop := Z.min (page * size) (Z.of_nat (length socks)) in
       if (start <? 0) || (stop <? start) then None else Some (take (Z.to_nat (stop - start)) (drop (Z.to_nat start) socks)))%Z.
(** catalogueservice.go:96-133 *)
Definition q_list (tags : list string) (order : string) (page size : Z) (d : db) : reply :=
  match cut (list_all tags order d) page size with Some l => Socks l | None => Panic end.
(** catalogueservice.go:136-168 *)
Definition q_count (tags : list string) (d : db) : reply :=
  Num (length (remove_dups (s ← d_socks d; l ← filter (λ l, l.1 = s.1) (d_links d); b ← filter (λ b, b.1 = l.2 ∧ wanted tags b.2) (d_tags d); [s.1]))).
(** catalogueservice.go:171-184; no row is an error of Get *)
Definition q_get (id : string) (d : db) : reply :=
  match group (filter (λ r, r.1.1.1 = id) (rows d)) with s :: _ => One s | [] => Failed end.
(** catalogueservice.go:187-191 *)
Definition q_tags (d : db) : reply := Names (d_tags d).*2.

(** ** Changes *)
(** catalogueservice.go:282-298 with the map tagLookup and the slice tagIds *)
Fixpoint add_each (m : gmap string nat) (tags : list string) (ids : list nat) (k : list nat → prog) : prog :=
  match tags with
  | [] => k ids
  | n :: tags =>
      match m !! n with
      | Some i => add_each m tags (ids ++ [i]) k
      | None => InsTag n (λ i, add_each (<[n := i]> m) tags (ids ++ [i]) k)
      end
  end.
(** catalogueservice.go:277-280 *)
Definition lookup_map (cur : list (nat * string)) : gmap string nat := foldl (λ m t, <[t.2 := t.1]> m) ∅ cur.
(** catalogueservice.go:271-301 *)
Definition add_tags (tags : list string) (k : list nat → prog) : prog := SelTags (λ cur, add_each (lookup_map cur) tags [] k).
(** catalogueservice.go:223-231 *)
Definition link_all (s : string) (ids : list nat) : prog := foldr (InsLink s) (Ret (Added s)) ids.
(** catalogueservice.go:210-232 *)
Definition put_sock (s info : string) (tags : list string) : prog := InsSock s info (add_tags tags (link_all s)).
(** catalogueservice.go:200-208 *)
Definition add_sock (id uuid info : string) (tags : list string) : prog :=
  if decide (id = "") then put_sock uuid info tags else DelLinks id (DelSock id (put_sock id info tags)).
(** catalogueservice.go:235-253 *)
Definition delete_sock (id : string) : prog := if decide (id = "") then Ret Ok else DelLinks id (DelSock id (Ret Ok)).
(** catalogueservice.go:13-41: the calls *)
Definition program (o : op) : prog :=
  match o with
  | AddSock id uuid info tags => add_sock id uuid info tags
  | DeleteSock id => delete_sock id
  | AddTags tags => add_tags tags (λ _, Ret Ok) (* catalogueservice.go:194-197 *)
  | List tags order page size => Query (q_list tags order page size)
  | Count tags => Query (q_count tags)
  | Get id => Query (q_get id)
  | Tags => Query q_tags
  end.

(** ** Running *)
Inductive thread := Running (p : prog) | Done (r : reply) | Gone.
Record world := World { w_db : db; w_calls : list (op * thread) }.
(** A statement is carried out if the database allows it, or is refused, or is carried out with the answer lost. *)
Inductive fate := Fine | Refused | Lost.
Inductive event := Start (o : op) | Step (t : nat) (f : fate) | Kill (t : nat).
Definition fine (f : fate) : bool := match f with Fine => true | _ => false end.
Definition done_by (f : fate) : bool := match f with Refused => false | _ => true end.
Definition settle (p : prog) : thread := match p with Ret r => Done r | _ => Running p end.
(** What a statement does to the tables; None: a key forbids it (catalogueservice.go:211, 225, 241, 247, 286) *)
Definition write (fk : bool) (p : prog) (d : db) : option db :=
  match p with
  | DelLinks s _ => Some (Db (d_socks d) (d_tags d) (filter (λ l, l.1 ≠ s) (d_links d)) (d_next d))
  | DelSock s _ =>
      if fk && bool_decide (s ∈ (d_links d).*1) then None else Some (Db (filter (λ x, x.1 ≠ s) (d_socks d)) (d_tags d) (d_links d) (d_next d))
  | InsSock s info _ => if decide (s ∈ (d_socks d).*1) then None else Some (Db (d_socks d ++ [(s, info)]) (d_tags d) (d_links d) (d_next d))
  | InsTag n _ => Some (Db (d_socks d) (d_tags d ++ [(d_next d, n)]) (d_links d) (S (d_next d)))
  | InsLink s i _ =>
      if fk && negb (bool_decide (s ∈ (d_socks d).*1 ∧ i ∈ (d_tags d).*1)) then None
      else Some (Db (d_socks d) (d_tags d) (d_links d ++ [(s, i)]) (d_next d))
  | _ => Some d
  end.
(** What the call goes on with after a statement that worked; the select of catalogueservice.go:273 and the insert of 286-290 give it a value *)
Definition next (p : prog) (d : db) : prog :=
  match p with
  | Ret r => Ret r
  | DelLinks _ p | DelSock _ p | InsSock _ _ p | InsLink _ _ p => p
  | SelTags f => f (d_tags d)
  | InsTag _ f => f (d_next d)
  | Query q => Ret (q d)
  end.
(** A call starts, makes one statement, or is cut off by a crash; an error of a statement is returned at once
    (catalogueservice.go:122, 155, 163, 176, 203, 213, 219, 226, 242, 248, 273, 287) *)
Definition step (fk : bool) (e : event) (w : world) : option world :=
  match e with
  | Start o => Some (World (w_db w) (w_calls w ++ [(o, settle (program o))]))
  | Step t f =>
      match w_calls w !! t with
      | Some (o, Running p) =>
          match (if done_by f then write fk p (w_db w) else None) with
          | Some d => Some (World d (<[t := (o, if fine f then settle (next p (w_db w)) else Done Failed)]> (w_calls w)))
          | None => Some (World (w_db w) (<[t := (o, Done Failed)]> (w_calls w)))
          end
      | _ => None
      end
  | Kill t =>
      match w_calls w !! t with
      | Some (o, Running _) => Some (World (w_db w) (<[t := (o, Gone)]> (w_calls w)))
      | _ => None
      end
  end.
(** catalogueservice.go:304-317: the empty tables *)
Definition started : world := World (Db [] [] [] 1) [].
