(** * Model of the links in posts of the social network example: examples/dsb_sn/workflow/socialnetwork/TextService.go and UrlShortenService.go

    Simplified: text is a list of bytes of which the links are ASCII; the mentions of users are left out, apart from their failing. That ten letters are drawn is not used: any nonempty string of letters will do. *)
From Coq Require Export Ascii String.
From stdpp Require Export numbers strings.
From stdpp Require Export list.
Set Default Proof Using "Type".
Open Scope list_scope.

(** A Go string *)
Definition text : Type := list ascii.
Definition txt (s : string) : text := list_ascii_of_string s.
(** Characters of a range such as a-z in TextService.go:35 *)
Definition code_in (c : ascii) (a b : nat) : bool := (a <=? nat_of_ascii c) && (nat_of_ascii c <=? b).
(** common.go:46 letterRunes, of which UrlShortenService.go:31-37 takes ten; also in TextService.go:35 *)
Definition letter (c : ascii) : bool := code_in c 97 122 || code_in c 65 90.
(** TextService.go:35: [a-zA-Z0-9_!~*'().&=+$%-] *)
Definition body (c : ascii) : bool := letter c || code_in c 48 57 || bool_decide (c ∈ txt "_!~*'().&=+$%-").
(** TextService.go:35: http:// or https:// *)
Definition http : text := txt "http://".
Definition https : text := txt "https://".
(** Whether strings.ReplaceAll (TextService.go:62) finds [u] at the start of [s] *)
Fixpoint is_prefix (u s : text) : bool :=
  match u, s with
  | [], _ => true
  | a :: u, b :: s => bool_decide (a = b) && is_prefix u s
  | _, [] => false
  end.
(** TextService.go:35: the characters of the class at the start, as many as there are *)
Fixpoint span (s : text) : text := match s with c :: s => if body c then c :: span s else [] | [] => [] end.
(** TextService.go:35: what the expression matches at the start of [s] *)
Definition match_at (s : text) : option text :=
  let after (p : text) := if is_prefix p s then match span (drop (length p) s) with [] => None | b => Some (p ++ b) end else None in
  match after http with Some u => Some u | None => after https end.
(** TextService.go:36: FindAllString: leftmost matches that do not overlap; [skip] characters belong to the last one *)
Fixpoint find_all (skip : nat) (s : text) : list text :=
  match s with
  | [] => []
  | c :: s' =>
      match skip with
      | S k => find_all k s'
      | O => match match_at s with Some u => u :: find_all (length u - 1) s' | None => find_all 0 s' end
      end
  end.
(** TextService.go:62: strings.ReplaceAll with a nonempty [u] *)
Fixpoint replace_all (u v : text) (skip : nat) (s : text) : text :=
  match s with
  | [] => []
  | c :: s' =>
      match skip with
      | S k => replace_all u v k s'
      | O => if is_prefix u s then v ++ replace_all u v (length u - 1) s' else c :: replace_all u v 0 s'
      end
  end.
(** UrlShortenService.go:28, 44 *)
Definition short (r : text) : text := txt "http://short-url/" ++ r.
(** UrlShortenService.go:43-48, 61: short link and link, with what the random generator gives *)
Definition compose_urls (rs : list text) (urls : list text) : list (text * text) := zip (short <$> rs) urls.
(** TextService.go:59-64 *)
Definition update (s : text) (urls : list (text * text)) : text := foldl (λ s p, replace_all p.2 p.1 0 s) s urls.
(** UrlShortenService.go:51-58: the database works, or refuses, or stores the links and loses the answer *)
Inductive fate := Fine | Refused | Lost.
(** What TextService.go:53, 56, 66 return, and the documents of UrlShortenService.go:55 *)
Record outcome := Outcome { o_text : text; o_urls : list (text * text); o_stored : list (text * text); o_fails : bool }.
(** TextService.go:28-67; [mentions] tells whether ComposeUserMentions works *)
Definition compose_text (s : text) (rs : list text) (db : fate) (mentions : bool) : outcome :=
  let found := find_all 0 s in
  let urls := compose_urls rs found in
  match urls, db with
  | [], _ => Outcome s [] [] (negb mentions)
  | _, Fine => if mentions then Outcome (update s urls) urls urls false else Outcome s urls urls true
  | _, Refused => Outcome s [] [] true
  | _, Lost => Outcome s [] urls true
  end.
