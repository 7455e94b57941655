(** * Model of the social graph of the social network example: examples/dsb_sn/workflow/socialnetwork/SocialGraphService.go

    A call is one or three goroutines of cache and database calls, which interleave with those of other calls.
    Simplified: the times of follows, which are never read, are left out, so that the stored lists are lists of ids;
    GetCollection and the parsing of queries do not fail, and the numbers in queries go through [json_num]; the counters kept for statistics are left out. *)
From Verif Require Export JsonNum_Model.
From stdpp Require Export numbers gmap list.
Set Default Proof Using "Type".
Open Scope Z_scope.

(** SocialGraphService.go:45-50, as stored: of an entry of the lists the field "userid" that Follow writes. *)
Record udoc := UDoc { u_id : Z; u_fers : list Z; u_fees : list Z }.
(** SocialGraphService.go:69, 109: id + ":followers" and id + ":followees" *)
Inductive ckey := Fers (u : Z) | Fees (u : Z).
Global Instance ckey_eq_dec : EqDecision ckey. Proof. solve_decision. Defined.
Global Instance ckey_countable : Countable ckey.
Proof.
  refine (inj_countable' (λ k, match k with Fers u => (u, true) | Fees u => (u, false) end)
    (λ p, match p with (u, true) => Fers u | (u, false) => Fees u end) _). by intros [].
Defined.

Inductive reply := Ok | Ids (l : list Z) | Failed.
Inductive res := Hit (l : list Z) | Miss | Err.
Inductive prog :=
  | Ret (r : reply)
  | CGet (k : ckey) (f : res → prog)
  | CPut (k : ckey) (l : list Z) (ignore : bool) (p : prog)
  | DFind (u : Z) (f : option udoc → prog)
  | DUpd (u : Z) (g : udoc → udoc) (p : prog)
  | DIns (d : udoc) (p : prog).
Inductive op := AddUser (u : Z) | GetFers (u : Z) | GetFees (u : Z) | Follow (u v : Z) | Unfollow (u v : Z).

(** SocialGraphService.go:65-102, 105-145.  An entry read from the database has no field "followerid" (or
    "followeeid"), which the struct it is decoded into has: the id becomes 0.  The error of Put is ignored. *)
Definition get_list (k : ckey) (sel : udoc → list Z) (u : Z) : prog :=
  CGet k (λ r, match r with
    | Err => Ret Failed
    | Hit l => Ret (Ids l)
    | Miss => DFind (json_num u) (λ d, match d with
        | None => Ret Failed
        | Some d => let l := (λ _, 0) <$> sel d in CPut k l true (Ret (Ids l))
        end)
    end).
(** The variable after Get, whose error is ignored (SocialGraphService.go:204-205, 279-280) *)
Definition got (r : res) : list Z := match r with Hit l => l | _ => [] end.
(** The third goroutine (SocialGraphService.go:200-213, 273-296) *)
Definition update_cache (u v : Z) (f g : list Z → list Z) : prog :=
  CGet (Fees u) (λ r1, CGet (Fers v) (λ r2,
    CPut (Fees u) (f (got r1)) false (CPut (Fers v) (g (got r2)) false (Ret Ok)))).
(** SocialGraphService.go:148-222 *)
Definition follow (u v : Z) : list prog :=
  [DUpd (json_num u) (λ d, UDoc (u_id d) (u_fers d) (u_fees d ++ [json_num v])) (Ret Ok);
   DUpd (json_num v) (λ d, UDoc (u_id d) (u_fers d ++ [json_num u]) (u_fees d)) (Ret Ok);
   update_cache u v (λ l, l ++ [v]) (λ l, l ++ [u])].
(** SocialGraphService.go:225-305 *)
Definition unfollow (u v : Z) : list prog :=
  [DUpd (json_num u) (λ d, UDoc (u_id d) (u_fers d) (filter (.≠ json_num v) (u_fees d))) (Ret Ok);
   DUpd (json_num v) (λ d, UDoc (u_id d) (filter (.≠ json_num u) (u_fers d)) (u_fees d)) (Ret Ok);
   update_cache u v (filter (.≠ v)) (filter (.≠ u))].
(** SocialGraphService.go:360-367 *)
Definition insert_user (u : Z) : list prog := [DIns (UDoc u [] []) (Ret Ok)].
Definition goroutines (o : op) : list prog :=
  match o with
  | AddUser u => insert_user u
  | GetFers u => [get_list (Fers u) u_fers u]
  | GetFees u => [get_list (Fees u) u_fees u]
  | Follow u v => follow u v
  | Unfollow u v => unfollow u v
  end.

(** ** Running *)
Inductive thread := Running (ps : list prog) | Done (r : reply).
Record world := World { w_cache : gmap ckey (list Z); w_docs : list udoc; w_calls : list (op * thread) }.
(** A cache or database call works, is refused, or is carried out with the answer lost. *)
Inductive fate := Fine | Refused | Lost.
Inductive event := Start (o : op) | Step (t g : nat) (f : fate) | Evict (k : ckey).

(** FindOne and UpdateOne take the first document. *)
Definition find_doc (l : list udoc) (u : Z) : option udoc := head (filter (λ d, u_id d = u) l).
Fixpoint upd_doc (l : list udoc) (u : Z) (g : udoc → udoc) : list udoc :=
  match l with
  | [] => []
  | d :: l => if bool_decide (u_id d = u) then g d :: l else d :: upd_doc l u g
  end.
Definition fine (f : fate) : bool := match f with Fine => true | _ => false end.
Definition done_by (f : fate) : bool := match f with Refused => false | _ => true end.
Definition exec (p : prog) (f : fate) (c : gmap ckey (list Z)) (ds : list udoc) : prog * gmap ckey (list Z) * list udoc :=
  match p with
  | Ret r => (Ret r, c, ds)
  | CGet k g => (g (if fine f then match c !! k with Some l => Hit l | None => Miss end else Err), c, ds)
  | CPut k l ignore p =>
      (if fine f || ignore then p else Ret Failed, if done_by f then <[k := l]> c else c, ds)
  | DFind u g => (if fine f then g (find_doc ds u) else Ret Failed, c, ds)
  | DUpd u g p => (if fine f then p else Ret Failed, c, if done_by f then upd_doc ds u g else ds)
  | DIns d p => (if fine f then p else Ret Failed, c, if done_by f then ds ++ [d] else ds)
  end.
(** Once all goroutines are done: the first error, or the result *)
Fixpoint outcome (ps : list prog) : option reply :=
  match ps with
  | [] => Some Ok
  | Ret Ok :: ps => outcome ps
  | Ret r :: ps => match outcome ps with Some _ => Some r | None => None end
  | _ => None
  end.
Definition settle (ps : list prog) : thread := match outcome ps with Some r => Done r | None => Running ps end.
Definition step (e : event) (w : world) : option world :=
  match e with
  | Start o => Some (World (w_cache w) (w_docs w) (w_calls w ++ [(o, settle (goroutines o))]))
  | Step t g f =>
      match w_calls w !! t with
      | Some (o, Running ps) =>
          match ps !! g with
          | Some (Ret _) | None => None
          | Some p =>
              let '(p', c, ds) := exec p f (w_cache w) (w_docs w) in
              Some (World c ds (<[t := (o, settle (<[g := p']> ps))]> (w_calls w)))
          end
      | _ => None
      end
  | Evict k => Some (World (delete k (w_cache w)) (w_docs w) (w_calls w))
  end.
Definition started : world := World ∅ [] [].
