(** * What should become of links *)
From Verif Require Export Links_Model.
From stdpp Require Export list.

(** Text in pieces: characters, and links *)
Inductive piece := Char (c : ascii) | Link (u : text).
Definition written (p : piece) : text := match p with Char c => [c] | Link u => u end.
Definition whole (ps : list piece) : text := concat (map written ps).
Definition links (ps : list piece) : list text := omap (λ p, match p with Link u => Some u | _ => None end) ps.
(** The characters that links consist of after http:// or https://, and those of short links *)
Definition letters : text := txt "abcdefghijklmnopqrstuvwxyzABCDEFGHIJKLMNOPQRSTUVWXYZ".
Definition allowed : text := letters ++ txt "0123456789_!~*'().&=+$%-".
(** A link begins here *)
Definition starts (s : text) : Prop := ∃ h c r, (h = http ∨ h = https) ∧ body c = true ∧ s = h ++ c :: r.
Definition is_link (u : text) : Prop := ∃ h b, (h = http ∨ h = https) ∧ b ≠ [] ∧ Forall (λ c, body c = true) b ∧ u = h ++ b.
(** The text cut at its links, which go as far as possible *)
Inductive cut : list piece → Prop :=
  | cut_nil : cut []
  | cut_char c ps : cut ps → ¬ starts (c :: whole ps) → cut (Char c :: ps)
  | cut_link u ps : cut ps → is_link u → (∀ c, head (whole ps) = Some c → body c = false) → cut (Link u :: ps).
(** No link is the beginning of another one or of short links, or is followed by a colon *)
Definition colon : ascii := ascii_of_nat 58.
Definition apart (ps : list piece) : Prop :=
  (∀ u v, u ∈ links ps → v ∈ links ps → u `prefix_of` v → u = v) ∧
  (∀ u, u ∈ links ps → ¬ u `prefix_of` txt "http://short-url") ∧
  (∀ a u b, ps = a ++ Link u :: b → head (whole b) ≠ Some colon).
(** Random strings, one for each link *)
Definition random (rs : list text) (ps : list piece) : Prop := length rs = length (links ps) ∧ Forall (λ r, r ≠ [] ∧ Forall (λ c, letter c = true) r) rs.
(** Each link is exchanged for a short one that is stored for it, and nothing else changes *)
Definition exchanged (stored : list (text * text)) (p : piece) (s : text) : Prop :=
  match p with Char c => s = [c] | Link u => (s, u) ∈ stored end.
