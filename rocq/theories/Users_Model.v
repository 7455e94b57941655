(** * Model of the user service of the social network example: examples/dsb_sn/workflow/socialnetwork/UserService.go

    A call is a sequence of cache, database and social graph calls, which interleave with those of other calls.  Simplified:
    first and last names are left out; the token is what its claims say (user name and id; time and signature are left
    out, signing does not fail); the random salt is part of the call; the hash is a parameter; RegisterUser is RegisterUserWithId with an id
    from the generator (UniqueId); GetCollection does not fail. *)
From stdpp Require Export numbers strings gmap.
From stdpp Require Export list.
Set Default Proof Using "Type".
Open Scope Z_scope.

(** UserService.go:201, data.go User: as stored *)
Record user := User { us_name : string; us_id : Z; us_hash : string; us_salt : string }.
(** UserService.go:47-51, 171: the two types of value in the cache *)
Inductive cval := VLogin (id : Z) (hash salt : string) | VId (id : Z).
(** UserService.go:98, 149 *)
Definition login_key (u : string) : string := u +:+ ":Login".
Definition id_key (u : string) : string := u +:+ ":UserID".

Inductive reply := Ok | Token (u : string) (id : Z) | Creator (u : string) (id : Z) | Failed.
Inductive prog :=
  | Ret (r : reply)
  | CGet (k : string) (f : option cval → prog) (* the error is ignored *)
  | CPut (k : string) (v : cval) (p : prog)
  | DFind (u : string) (f : option user → prog)
  | DIns (d : user) (p : prog)
  | Graph (id : Z) (p : prog). (* socialGraphService.InsertUser *)
Inductive op := Login (u pwd : string) | GetCreator (u : string) | Register (u pwd : string) (id : Z) (salt : string).

Section users.
  Context (hash : string → string). (* UserService.go:86-90 *)

  (** UserService.go:115-138 *)
  Definition check (u pwd : string) (id : Z) (h s : string) : prog :=
    if bool_decide (hash (pwd +:+ s) = h) then CPut (login_key u) (VLogin id h s) (Ret (Token u id)) else Ret Failed.
  (** UserService.go:100-113; whether there is a user is not looked at: without, the variable keeps its zero value *)
  Definition lookup_login (u pwd : string) : prog :=
    DFind u (λ d, match d with Some d => check u pwd (us_id d) (us_hash d) (us_salt d) | None => check u pwd 0 "" "" end).
  (** UserService.go:93-139.  A cached value of another type is an error, which is ignored *)
  Definition login (u pwd : string) : prog :=
    CGet (login_key u) (λ c, match c with
      | Some (VLogin id h s) => if id =? -1 then lookup_login u pwd else check u pwd id h s
      | _ => lookup_login u pwd
      end).
  (** UserService.go:151-174 *)
  Definition lookup_creator (u : string) : prog :=
    DFind u (λ d, match d with Some d => CPut (id_key u) (VId (us_id d)) (Ret (Creator u (us_id d))) | None => Ret Failed end).
  (** UserService.go:147-176 *)
  Definition get_creator (u : string) : prog :=
    CGet (id_key u) (λ c, match c with
      | Some (VId id) => if id =? -1 then lookup_creator u else Ret (Creator u id)
      | _ => lookup_creator u
      end).
  (** UserService.go:199-201 *)
  Definition new_user (u pwd : string) (id : Z) (salt : string) : user := User u id (hash (pwd +:+ salt)) salt.
  (** UserService.go:179-207 *)
  Definition register (u pwd : string) (id : Z) (salt : string) : prog :=
    DFind u (λ d, match d with Some _ => Ret Failed | None => DIns (new_user u pwd id salt) (Graph id (Ret Ok)) end).
  Definition program (o : op) : prog :=
    match o with Login u p => login u p | GetCreator u => get_creator u | Register u p i s => register u p i s end.
End users.

(** ** Running *)
Inductive thread := Running (p : prog) | Done (r : reply) | Gone.
Record world := World { w_cache : gmap string cval; w_docs : list user; w_graph : list Z; w_calls : list (op * thread) }.
(** A call of a backend works, is refused, or is carried out with the answer lost. *)
Inductive fate := Fine | Refused | Lost.
Inductive event := Start (o : op) | Step (t : nat) (f : fate) | Kill (t : nat) | Evict (k : string).

(** FindOne takes the first document. *)
Definition find_user (l : list user) (u : string) : option user := head (filter (λ d, us_name d = u) l).
Definition fine (f : fate) : bool := match f with Fine => true | _ => false end.
Definition done_by (f : fate) : bool := match f with Refused => false | _ => true end.
Definition exec (p : prog) (f : fate) (w : world) : prog * world :=
  match p with
  | Ret r => (Ret r, w)
  | CGet k g => (g (if fine f then w_cache w !! k else None), w)
  | CPut k v p => (if fine f then p else Ret Failed, if done_by f then World (<[k := v]> (w_cache w)) (w_docs w) (w_graph w) (w_calls w) else w)
  | DFind u g => (if fine f then g (find_user (w_docs w) u) else Ret Failed, w)
  | DIns d p => (if fine f then p else Ret Failed, if done_by f then World (w_cache w) (w_docs w ++ [d]) (w_graph w) (w_calls w) else w)
  | Graph i p => (if fine f then p else Ret Failed, if done_by f then World (w_cache w) (w_docs w) (w_graph w ++ [i]) (w_calls w) else w)
  end.
Definition settle (p : prog) : thread := match p with Ret r => Done r | _ => Running p end.
Definition set_calls (w : world) (l : list (op * thread)) : world := World (w_cache w) (w_docs w) (w_graph w) l.
Definition step (hash : string → string) (e : event) (w : world) : option world :=
  match e with
  | Start o => Some (set_calls w (w_calls w ++ [(o, settle (program hash o))]))
  | Step t f =>
      match w_calls w !! t with
      | Some (o, Running p) => let '(p', w') := exec p f w in Some (set_calls w' (<[t := (o, settle p')]> (w_calls w)))
      | _ => None
      end
  | Kill t =>
      match w_calls w !! t with
      | Some (o, Running _) => Some (set_calls w (<[t := (o, Gone)]> (w_calls w)))
      | _ => None
      end
  | Evict k => Some (World (delete k (w_cache w)) (w_docs w) (w_graph w) (w_calls w))
  end.
Definition started : world := World ∅ [] [] [].
