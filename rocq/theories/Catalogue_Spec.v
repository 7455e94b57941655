(** * What the catalogue should do *)
From Verif Require Export Catalogue_Model.
From stdpp Require Export list.

Inductive run (fk : bool) (P : world → event → Prop) : world → list event → world → Prop :=
  | run_nil w : run fk P w [] w
  | run_snoc w es w1 e w2 : run fk P w es w1 → P w1 e → step fk e w1 = Some w2 → run fk P w (es ++ [e]) w2.
Definition history (fk : bool) : list event → world → Prop := run fk (λ _ _, True) started.

(** The sock is stored; it has the tag *)
Definition has_sock (w : world) (s info : string) : Prop := (s, info) ∈ d_socks (w_db w).
Definition tagged (w : world) (s n : string) : Prop := ∃ i, (s, i) ∈ d_links (w_db w) ∧ (i, n) ∈ d_tags (w_db w).
(** No comma in the text *)
Definition plain (s : string) : Prop := ∀ j, String.get j s ≠ Some (Ascii.ascii_of_nat 44).
(** The sock that the call is about *)
Definition target (o : op) : option string :=
  match o with AddSock id uuid _ _ => Some (if decide (id = "") then uuid else id) | DeleteSock id => Some id | _ => None end.
(** The tags that the call adds *)
Definition adds (o : op) : list string := match o with AddSock _ _ _ tags | AddTags tags => tags | _ => [] end.
Definition over (th : thread) : Prop := ∀ p, th ≠ Running p.
(** Of the calls about the sock, all are over when call [t] is the next to start; if it has an id that was made up, nobody used it before. *)
Definition alone_before (w : world) (s : string) (o : op) : Prop :=
  (∀ t' o' th, w_calls w !! t' = Some (o', th) → target o' = Some s → over th) ∧
  match o with AddSock id _ _ _ => id = "" → ∀ t' o' th, w_calls w !! t' = Some (o', th) → target o' ≠ Some s | _ => True end.
(** No call about the sock starts *)
Definition spares (s : string) (w : world) (e : event) : Prop := match e with Start o => target o ≠ Some s | _ => True end.
(** Calls that add tags do not overlap *)
Definition one_adder (w : world) (e : event) : Prop :=
  match e with Start o => adds o ≠ [] → ∀ t o' th, w_calls w !! t = Some (o', th) → adds o' ≠ [] → over th | _ => True end.
(** What a call that is made now, with nothing else happening, answers *)
Definition answers (fk : bool) (w : world) (o : op) (r : reply) : Prop :=
  ∃ w', run fk (λ _ _, True) w [Start o; Step (length (w_calls w)) Fine] w' ∧ w_calls w' !! length (w_calls w) = Some (o, Done r).
(** No call so far has brought a tag with a comma in it *)
Definition clean (w : world) : Prop := ∀ t o th n, w_calls w !! t = Some (o, th) → n ∈ adds o → plain n.
(** The call reads only *)
Definition reads (o : op) : Prop := target o = None ∧ ∀ tags, o ≠ AddTags tags.
