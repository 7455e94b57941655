(** * Model of the composition of posts of the social network example: examples/dsb_sn/workflow/socialnetwork/ComposePostService.go and MediaService.go

    Calls interleave, fail and are killed.  Simplified: the text service (C93, C94) and the unique id service (C83) are oracles of which only the
    answers count, so that the four goroutines before wg.Wait are one step; the post storage (C91) and the timelines (C88, C92) are lists that each
    accepted call adds to. *)
From stdpp Require Export numbers strings.
From stdpp Require Export list.
Set Default Proof Using "Type".
Open Scope Z_scope.

(** ComposePostService.go:33-34: the arguments, and the clock when the call begins *)
Record args := Args { a_req : Z; a_name : string; a_user : Z; a_text : string; a_ids : list Z; a_types : list string; a_kind : Z; a_clock : Z }.
(** DataModels.go:48-58 *)
Record post := Post { p_id : Z; p_creator : Z * string; p_req : Z; p_text : string; p_mentions : list (Z * string); p_medias : list (Z * string);
  p_urls : list (string * string); p_time : Z; p_kind : Z }.
(** What ComposeText answers: the text, mentions and links of TextService.go:66 *)
Definition texted : Type := string * list (Z * string) * list (string * string).
(** MediaService.go:24-37 *)
Definition compose_media (types : list string) (ids : list Z) : option (list (Z * string)) :=
  if bool_decide (length types = length ids) then Some (zip ids types) else None.
(** UserService.go:142-144 *)
Definition compose_creator (user : Z) (name : string) : Z * string := (user, name).
(** ComposePostService.go:44-82: nothing if one of the four fails.  The Timestamp of the post is not set. *)
Definition prepare (a : args) (t : option texted) (i : option Z) : option post :=
  match t, compose_media (a_types a) (a_ids a), i with
  | Some (s, ms, us), Some medias, Some i => Some (Post i (compose_creator (a_user a) (a_name a)) (a_req a) s ms medias us 0 (a_kind a))
  | _, _, _ => None
  end.
(** ComposePostService.go:84-87 *)
Definition mention_ids (p : post) : list Z := (p_mentions p).*1.
(** ComposePostService.go:90-103: the three goroutines *)
Inductive part := Storage | User | Home.
Global Instance part_dec : EqDecision part.
Proof. solve_decision. Defined.
(** The post id, the mentions and whether there is an error: ComposePostService.go:63-72, 105-111 *)
Record reply := Reply { r_id : Z; r_mentions : list Z; r_fails : bool }.
(** A call: in the first four goroutines; in the last three, with those that are still to do and whether one has failed; answered; killed *)
Inductive thread := Preparing | Writing (p : post) (todo : list part) (failed : bool) | Done (r : reply) | Gone.
(** Posts stored; (user, post, time) of user timelines; (user, post, time, mentions) of home timelines; the calls *)
Record world := World { w_posts : list post; w_user : list (Z * Z * Z); w_home : list (Z * Z * Z * list Z); w_calls : list (args * thread) }.
(** A write works, or is refused, or works with the answer lost *)
Inductive fate := Fine | Refused | Lost.
(** [Prepared]: the four goroutines are done, with these answers; [Write]: one of the three is done *)
Inductive event := Start (a : args) | Prepared (t : nat) (s : option texted) (i : option Z) | Write (t : nat) (k : part) (f : fate) | Kill (t : nat).
(** Whether the caller sees success *)
Definition fine (f : fate) : bool := match f with Fine => true | _ => false end.
(** Whether the write is carried out *)
Definition done_by (f : fate) : bool := match f with Refused => false | _ => true end.
(** ComposePostService.go:104-111: after the third goroutine the call answers *)
Definition settle (p : post) (todo : list part) (failed : bool) : thread :=
  match todo with [] => Done (Reply (p_id p) (mention_ids p) failed) | _ => Writing p todo failed end.
(** ComposePostService.go:92, 96, 101 *)
Definition write (a : args) (p : post) (k : part) (w : world) : world :=
  match k with
  | Storage => World (w_posts w ++ [p]) (w_user w) (w_home w) (w_calls w)
  | User => World (w_posts w) (w_user w ++ [(a_user a, p_id p, a_clock a)]) (w_home w) (w_calls w)
  | Home => World (w_posts w) (w_user w) (w_home w ++ [(a_user a, p_id p, a_clock a, mention_ids p)]) (w_calls w)
  end.
(** What becomes of call [t] *)
Definition set_call (t : nat) (a : args) (th : thread) (w : world) : world := World (w_posts w) (w_user w) (w_home w) (<[t := (a, th)]> (w_calls w)).
(** ComposePostService.go:33-112 *)
Definition step (e : event) (w : world) : option world :=
  match e with
  | Start a => Some (World (w_posts w) (w_user w) (w_home w) (w_calls w ++ [(a, Preparing)]))
  | Prepared t s i =>
      match w_calls w !! t with
      | Some (a, Preparing) =>
          Some (set_call t a (match prepare a s i with Some p => Writing p [Storage; User; Home] false | None => Done (Reply (-1) [] true) end) w)
      | _ => None
      end
  | Write t k f =>
      match w_calls w !! t with
      | Some (a, Writing p todo failed) =>
          if bool_decide (k ∈ todo)
          then Some (set_call t a (settle p (filter (λ k', k' ≠ k) todo) (failed || negb (fine f))) (if done_by f then write a p k w else w))
          else None
      | _ => None
      end
  | Kill t =>
      match w_calls w !! t with
      | Some (a, Preparing) | Some (a, Writing _ _ _) => Some (set_call t a Gone w)
      | _ => None
      end
  end.
(** ComposePostService.go:28-30 *)
Definition started : world := World [] [] [] [].
