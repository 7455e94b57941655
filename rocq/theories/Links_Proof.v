(** * Proofs about links *)
From Verif Require Export Links_Spec.
From stdpp Require Export list.
Set Default Proof Using "Type".

Lemma is_prefix_spec u s : is_prefix u s = true ↔ u `prefix_of` s.
Proof.
  revert s. induction u as [|a u IH]; intros s; simpl; [split; [intros _; apply prefix_nil|done]|].
  destruct s as [|b s]; [split; [done|intros H; by apply prefix_nil_not in H]|]. rewrite andb_true_iff, bool_decide_eq_true, IH. split.
  - intros [-> H]. by apply prefix_cons.
  - intros H. split; [by apply prefix_cons_inv_1 in H|by apply prefix_cons_inv_2 in H].
Qed.
Lemma letter_body c : letter c = true → body c = true.
Proof. unfold body. by intros ->. Qed.
Lemma prefix_starts u s : is_link u → u `prefix_of` s → starts s.
Proof.
  intros (h & b & Hh & Hne & Hb & ->) [k ->]. destruct b as [|c b]; [done|]. apply Forall_cons in Hb as [Hc _]. exists h, c, (b ++ k).
  split; [done|]. split; [done|]. by rewrite <-app_assoc.
Qed.
Definition aH : ascii := ascii_of_nat 104.

(** ** Where links begin *)
(** What follows a link or a short link *)
Definition ended (rest : text) : Prop := ∀ c, head rest = Some c → body c = false ∧ c ≠ colon.
Lemma tail_starts b rest : b ≠ [] → Forall (λ c, body c = true) b → ended rest → ¬ starts (b ++ rest).
Proof.
  intros Hne Hb He (h & c & r & Hh & Hc & E). unfold ended in He.
  assert (∀ c, c = colon → body c = false) as Hcol by (intros ? ->; by vm_compute).
  destruct Hh as [-> | ->]; unfold http, https, txt in E; simpl in E.
  - do 5 (destruct b as [|? b]; [try done; simpl in E; subst rest; destruct (He _ eq_refl) as [H1 H2]; try (by vm_compute in H1); by destruct H2|simpl in E; injection E as -> E; apply Forall_cons in Hb as [Hx' Hb]; try clear Hx; rename Hx' into Hx]).
    by vm_compute in Hx.
  - do 6 (destruct b as [|? b]; [try done; simpl in E; subst rest; destruct (He _ eq_refl) as [H1 H2]; try (by vm_compute in H1); by destruct H2|simpl in E; injection E as -> E; apply Forall_cons in Hb as [Hx' Hb]; try clear Hx; rename Hx' into Hx]).
    by vm_compute in Hx.
Qed.
Lemma inner_scheme h a h2 y : h = http ∨ h = https → h = a ++ h2 → a ≠ [] → h2 ≠ [] → ¬ starts (h2 ++ y).
Proof.
  intros Hh E Ha H2 (h' & c & r & Hh' & _ & E').
  assert (head h2 = Some aH) as Hd.
  { destruct h2 as [|x h2]; [done|]. simpl. destruct Hh' as [-> | ->]; unfold http, https, txt in E'; simpl in E'; injection E' as -> _; reflexivity. }
  destruct Hh as [-> | ->]; unfold http, https, txt in E; simpl in E.
  - do 8 (destruct a as [|? a]; [try done; simpl in E; subst h2; done|simpl in E; try discriminate E; injection E as <- E]).
    all: try done.
  - do 9 (destruct a as [|? a]; [try done; simpl in E; subst h2; done|simpl in E; try discriminate E; injection E as <- E]).
    all: try done.
Qed.
Lemma inner_short a h2 y : txt "http://short-url/" = a ++ h2 → a ≠ [] → h2 ≠ [] → ¬ starts (h2 ++ y).
Proof.
  intros E Ha H2 (h' & c & r & Hh' & _ & E'). unfold txt in E; simpl in E.
  do 18 (destruct a as [|? a]; [try done; simpl in E; subst h2; destruct Hh' as [-> | ->]; unfold http, https, txt in E'; simpl in E'; (try done); discriminate E'|simpl in E; try discriminate E; injection E as <- E]).
  all: try done.
Qed.
(** No link begins inside a link *)
Lemma inside_link u rest a t : is_link u → ended rest → u = a ++ t → a ≠ [] → t ≠ [] → ¬ starts (t ++ rest).
Proof.
  intros (h & b & Hh & Hne & Hb & ->) He E Ha Ht. symmetry in E. apply app_eq_inv in E as [(k & -> & ->)|(k & Eh & ->)].
  - apply Forall_app in Hb as [_ Hb]. by apply tail_starts.
  - rewrite <-app_assoc. destruct k as [|x k]; [simpl; by apply tail_starts|]. by eapply inner_scheme.
Qed.
Lemma inside_short r rest a t : Forall (λ c, letter c = true) r → r ≠ [] → ended rest → short r = a ++ t → a ≠ [] → t ≠ [] → ¬ starts (t ++ rest).
Proof.
  intros Hr Hne He E Ha Ht. assert (Forall (λ c, body c = true) r) as Hb by (eapply Forall_impl; [exact Hr|]; simpl; apply letter_body).
  unfold short in E. symmetry in E. apply app_eq_inv in E as [(k & -> & ->)|(k & Eh & ->)].
  - apply Forall_app in Hb as [_ Hb]. by apply tail_starts.
  - rewrite <-app_assoc. destruct k as [|x k]; [simpl; by apply tail_starts|]. by eapply inner_short.
Qed.
(** What begins with an h can be exchanged *)
Lemma starts_h pl x y : pl ≠ [] → starts (pl ++ aH :: y) → starts (pl ++ aH :: x).
Proof.
  intros Hne (h & c & r & Hh & Hc & E). destruct Hh as [-> | ->].
  - unfold http, txt in E. simpl in E.
    do 7 (destruct pl as [|? pl]; [try done; simpl in E; discriminate E|simpl in E; injection E as -> E]).
    destruct pl as [|c' pl].
    + exists http, aH, x. split; [by left|]. split; [by vm_compute|]. done.
    + simpl in E. injection E as -> E. exists http, c, (pl ++ aH :: x). split; [by left|]. done.
  - unfold https, txt in E. simpl in E.
    do 8 (destruct pl as [|? pl]; [try done; simpl in E; discriminate E|simpl in E; injection E as -> E]).
    destruct pl as [|c' pl].
    + exists https, aH, x. split; [by right|]. split; [by vm_compute|]. done.
    + simpl in E. injection E as -> E. exists https, c, (pl ++ aH :: x). split; [by right|]. done.
Qed.

(** ** Texts in which some links are exchanged *)
Definition shown (f : text → option text) (p : piece) : text := match p with Char c => [c] | Link u => default u (f u) end.
Definition render (f : text → option text) (ps : list piece) : text := concat (map (shown f) ps).
Definition is_short (v : text) : Prop := ∃ r, v = short r ∧ r ≠ [] ∧ Forall (λ c, letter c = true) r.
Definition valid (f : text → option text) : Prop := ∀ u v, f u = Some v → is_short v.
Lemma link_h u : is_link u → ∃ y, u = aH :: y.
Proof. intros (h & b & [-> | ->] & _ & _ & ->); unfold http, https, txt; simpl; eexists; reflexivity. Qed.
Lemma short_h v : is_short v → ∃ y, v = aH :: y.
Proof. intros (r & -> & _). unfold short, txt; simpl; eexists; reflexivity. Qed.
Lemma shown_h f u : valid f → is_link u → ∃ y, shown f (Link u) = aH :: y.
Proof. intros Hf Hu. simpl. destruct (f u) as [v|] eqn:E; simpl; [apply short_h; eauto|by apply link_h]. Qed.
Lemma render_cons f p ps : render f (p :: ps) = shown f p ++ render f ps.
Proof. done. Qed.
Lemma whole_cons p ps : whole (p :: ps) = written p ++ whole ps.
Proof. done. Qed.
Lemma render_starts f ps pl : valid f → cut ps → pl ≠ [] → starts (pl ++ render f ps) → starts (pl ++ whole ps).
Proof.
  intros Hf Hc. revert pl. induction Hc as [|c ps Hc IH Hn|u ps Hc IH Hu He]; intros pl Hne; [done| |].
  - rewrite render_cons, whole_cons. intros H. simpl shown in H. simpl written. rewrite app_assoc in *. apply IH; [by destruct pl|done].
  - rewrite render_cons, whole_cons. intros H. destruct (shown_h f u Hf Hu) as [y Ey]. rewrite Ey in H. simpl written. destruct (link_h u Hu) as [x ->]. by eapply starts_h.
Qed.
Lemma render_head f ps : valid f → cut ps → head (render f ps) = head (whole ps).
Proof.
  intros Hf Hc. destruct Hc as [|c ps Hc Hn|u ps Hc Hu He]; [done|done|]. rewrite render_cons, whole_cons.
  destruct (shown_h f u Hf Hu) as [y ->]. simpl written. by destruct (link_h u Hu) as [x ->].
Qed.
Lemma link_short u s : is_link u → u `prefix_of` txt "http://short-url/" ++ s → u `prefix_of` txt "http://short-url".
Proof.
  intros (h & b & Hh & Hne & Hb & ->) [k E]. unfold txt in *. destruct Hh as [-> | ->]; unfold http, https, txt in *; simpl in *; [|discriminate E].
  injection E as E. clear Hne.
  do 9 (destruct b as [|? b]; [apply is_prefix_spec; by vm_compute|simpl in E; injection E as <- E; apply Forall_cons in Hb as [_ Hb]]).
  destruct b as [|? b]; [apply is_prefix_spec; by vm_compute|]. simpl in E. injection E as <- E. apply Forall_cons in Hb as [Hx _]. by vm_compute in Hx.
Qed.
Inductive no_colon : list piece → Prop :=
  | nc_nil : no_colon []
  | nc_char c ps : no_colon ps → no_colon (Char c :: ps)
  | nc_link u ps : no_colon ps → head (whole ps) ≠ Some colon → no_colon (Link u :: ps).
Lemma apart_no_colon ps : (∀ a u b, ps = a ++ Link u :: b → head (whole b) ≠ Some colon) → no_colon ps.
Proof.
  induction ps as [|p ps IH]; intros H; [constructor|].
  assert (no_colon ps) as Hn. { apply IH. intros a x b ->. exact (H (p :: a) x b eq_refl). }
  destruct p as [c|u]; constructor; [done|done|]. exact (H [] u ps eq_refl).
Qed.
Lemma render_ended f u ps : valid f → cut (Link u :: ps) → no_colon (Link u :: ps) → ended (render f ps).
Proof.
  intros Hf Hc Hn. inversion Hc; subst. inversion Hn; subst. intros c. rewrite render_head by done. intros Hh. split; [auto|]. intros ->. done.
Qed.

(** ** Scanning *)
Lemma find_skip a s k : length a = k → find_all k (a ++ s) = find_all 0 s.
Proof. intros <-. induction a; simpl; done. Qed.
Lemma replace_skip u v a s k : length a = k → replace_all u v k (a ++ s) = replace_all u v 0 s.
Proof. intros <-. induction a; simpl; done. Qed.
Lemma replace_pass u v w s : (∀ a t, w = a ++ t → t ≠ [] → ¬ u `prefix_of` t ++ s) → replace_all u v 0 (w ++ s) = w ++ replace_all u v 0 s.
Proof.
  induction w as [|c w IH]; intros H; [done|]. simpl app at 1. unfold replace_all; fold replace_all.
  destruct (is_prefix u (c :: w ++ s)) eqn:E.
  - apply is_prefix_spec in E. by destruct (H [] (c :: w) eq_refl).
  - simpl. f_equal. apply IH. intros a t -> Ht. by apply (H (c :: a)).
Qed.
Lemma replace_here u v s : u ≠ [] → replace_all u v 0 (u ++ s) = v ++ replace_all u v 0 s.
Proof.
  intros Hu. destruct u as [|c u]; [done|]. simpl app at 1. remember (c :: u) as u0 eqn:E. unfold replace_all at 1; fold replace_all.
  rewrite (proj2 (is_prefix_spec _ _)); [|subst u0; by exists s]. f_equal. apply replace_skip. subst u0. simpl. lia.
Qed.
Definition upd (f : text → option text) (u v : text) : text → option text := λ x, if decide (x = u) then match f u with Some w => Some w | None => Some v end else f x.
Lemma replace_render f u v ps : valid f → is_link u → ¬ u `prefix_of` txt "http://short-url" → cut ps → no_colon ps →
  (∀ x, x ∈ links ps → u = x ∨ ¬ u `prefix_of` x ∧ ¬ x `prefix_of` u) →
  replace_all u v 0 (render f ps) = render (upd f u v) ps.
Proof.
  intros Hf Hu Hs Hc. induction Hc as [|c ps Hc IH Hn|x ps Hc IH Hx He]; intros Hnc Hl; [done| |].
  - inversion Hnc; subst. rewrite !render_cons. simpl shown. simpl app at 1. unfold replace_all; fold replace_all.
    destruct (is_prefix u (c :: render f ps)) eqn:E.
    + apply is_prefix_spec in E. destruct Hn. apply (render_starts f ps [c]); [done|done|done|]. by apply (prefix_starts u).
    + simpl. f_equal. by apply IH.
  - assert (ended (render f ps)) as Hend by (apply (render_ended f x); [done|by constructor|done]).
    inversion Hnc; subst. assert (∀ x, x ∈ links ps → u = x ∨ ¬ u `prefix_of` x ∧ ¬ x `prefix_of` u) as Hl' by (intros y Hy; apply Hl; by right).
    specialize (IH ltac:(done) Hl'). specialize (Hl x ltac:(by left)).
    rewrite !render_cons. unfold shown.
    destruct (f x) as [w|] eqn:Ef.
    + assert (upd f u v x = Some w) as ->. { unfold upd. destruct (decide (x = u)) as [->|]; [by rewrite Ef|done]. }
      simpl. rewrite replace_pass; [by rewrite IH|]. intros a t Ew Ht Hp. destruct (Hf _ _ Ef) as (r & -> & Hne & Hr). destruct a as [|y a].
      * simpl in Ew. subst t. unfold short in Hp. rewrite <-app_assoc in Hp. by apply link_short in Hp.
      * eapply inside_short; [exact Hr|done|exact Hend|exact Ew|done|done|]. by apply (prefix_starts u).
    + destruct (decide (x = u)) as [->|Hne].
      * assert (upd f u v u = Some v) as -> by (unfold upd; by rewrite decide_True, Ef).
        simpl default. rewrite replace_here by (destruct (link_h u Hu) as [y ->]; done). by rewrite IH.
      * assert (upd f u v x = None) as -> by (unfold upd; by rewrite decide_False).
        simpl default. rewrite replace_pass; [by rewrite IH|]. intros a t Ew Ht Hp. destruct Hl as [->|[Hl1 Hl2]]; [done|]. destruct a as [|y a].
        -- simpl in Ew. subst t. apply prefix_weak_total with (l2 := x) in Hp as [Hp|Hp]; [done|done|by apply prefix_app_r].
        -- eapply inside_link; [exact Hx|exact Hend|exact Ew|done|done|]. by apply (prefix_starts u).
Qed.

(** ** Finding the links *)
Lemma span_app b rest : Forall (λ c, body c = true) b → (∀ c, head rest = Some c → body c = false) → span (b ++ rest) = b.
Proof.
  intros Hb He. induction Hb as [|c b Hc Hb IH]; simpl.
  - destruct rest as [|x r]; [done|]. simpl. by rewrite (He x eq_refl).
  - by rewrite Hc, IH.
Qed.
Lemma span_spec s : ∃ rest, s = span s ++ rest ∧ Forall (λ c, body c = true) (span s) ∧ (∀ c, head rest = Some c → body c = false).
Proof.
  induction s as [|c s IH]; [exists []; split; [done|]; split; [constructor|done]|]. destruct IH as (rest & E & Hb & He). simpl. destruct (body c) eqn:Hc.
  - exists rest. simpl. rewrite <-E. auto.
  - exists (c :: s). split; [done|]. split; [constructor|]. intros ? [= <-]. done.
Qed.
Lemma match_at_link u rest : is_link u → (∀ c, head rest = Some c → body c = false) → match_at (u ++ rest) = Some u.
Proof.
  intros (h & b & Hh & Hne & Hb & ->) He. unfold match_at. rewrite <-app_assoc. destruct Hh as [-> | ->].
  - rewrite (proj2 (is_prefix_spec http _)) by (by exists (b ++ rest)). rewrite drop_app, (span_app _ _ Hb He). by destruct b.
  - replace (is_prefix http (https ++ b ++ rest)) with false by reflexivity.
    rewrite (proj2 (is_prefix_spec https _)) by (by exists (b ++ rest)). rewrite drop_app, (span_app _ _ Hb He). by destruct b.
Qed.
Lemma match_at_some s u : match_at s = Some u → ∃ rest, s = u ++ rest ∧ is_link u ∧ (∀ c, head rest = Some c → body c = false).
Proof.
  assert (∀ h, (h = http ∨ h = https) → (if is_prefix h s then match span (drop (length h) s) with [] => None | b => Some (h ++ b) end else None) = Some u →
    ∃ rest, s = u ++ rest ∧ is_link u ∧ (∀ c, head rest = Some c → body c = false)) as Hone.
  { intros h Hh H. destruct (is_prefix h s) eqn:E; [|done]. apply is_prefix_spec in E as [k ->]. rewrite drop_app in H. destruct (span_spec k) as (rest & Ek & Hb & He).
    exists rest. destruct (span k) as [|c b] eqn:Es; [done|]. injection H as <-. split; [by rewrite <-app_assoc, <-Ek|]. split; [|done]. exists h, (c :: b). done. }
  unfold match_at. destruct (if is_prefix http s then _ else _) as [u'|] eqn:E1; intros H; [simplify_eq; by apply (Hone http); auto|by apply (Hone https); auto].
Qed.
Lemma match_at_none s : ¬ starts s → match_at s = None.
Proof.
  intros Hn. destruct (match_at s) as [u|] eqn:E; [|done]. apply match_at_some in E as (rest & -> & Hu & _). destruct Hn. apply (prefix_starts u); [done|by exists rest].
Qed.
Lemma starts_match s : match_at s = None → ¬ starts s.
Proof.
  intros Hm (h & c & r & Hh & Hc & ->). destruct (span_spec (c :: r)) as (rest & E & Hb & He).
  assert (match_at ((h ++ span (c :: r)) ++ rest) = Some (h ++ span (c :: r))) as Hx.
  { apply match_at_link; [|done]. exists h, (span (c :: r)). split; [done|]. split; [|done]. simpl. by rewrite Hc. }
  rewrite <-app_assoc, <-E in Hx. congruence.
Qed.
Lemma find_links ps : cut ps → find_all 0 (whole ps) = links ps.
Proof.
  induction 1 as [|c ps Hc IH Hn|u ps Hc IH Hu He]; [done| |].
  - rewrite whole_cons. simpl written. simpl app. unfold find_all; fold find_all. rewrite match_at_none by done. done.
  - rewrite whole_cons. simpl written. pose proof (match_at_link u (whole ps) Hu He) as Hm. destruct u as [|c u]; [by destruct (link_h _ Hu)|].
    simpl app in *. unfold find_all; fold find_all. rewrite Hm. change (links (Link (c :: u) :: ps)) with ((c :: u) :: links ps). f_equal.
    rewrite find_skip by (simpl; lia). done.
Qed.
Lemma cut_exists s : ∃ ps, cut ps ∧ whole ps = s.
Proof.
  remember (length s) as n eqn:En. assert (length s ≤ n) as Hn by lia. clear En. revert s Hn. induction n as [|n IH]; intros s Hn.
  - destruct s; [|simpl in Hn; lia]. exists []. split; [constructor|done].
  - destruct (match_at s) as [u|] eqn:E.
    + apply match_at_some in E as (rest & -> & Hu & He). destruct (link_h u Hu) as [y Ey]. destruct (IH rest) as (ps & Hc & Hw).
      { rewrite app_length, Ey in Hn. simpl in Hn. lia. }
      exists (Link u :: ps). split; [constructor; [done|done|by rewrite Hw]|]. rewrite whole_cons, Hw. done.
    + destruct s as [|c s]; [exists []; split; [constructor|done]|]. destruct (IH s) as (ps & Hc & Hw); [simpl in Hn; lia|].
      exists (Char c :: ps). split; [constructor; [done|]; rewrite Hw; by apply starts_match|]. rewrite whole_cons, Hw. done.
Qed.
Lemma link_of ps u : cut ps → u ∈ links ps → is_link u.
Proof. induction 1 as [|c ps Hc IH Hn|x ps Hc IH Hx He]; simpl; intros Hin; [by apply elem_of_nil in Hin|by apply IH|]. apply elem_of_cons in Hin as [->|Hin]; [done|by apply IH]. Qed.

(** ** All links *)
Lemma update_render ps l f : cut ps → apart ps → valid f → (∀ p, p ∈ l → p.2 ∈ links ps ∧ is_short p.1) →
  update (render f ps) l = render (foldl (λ f p, upd f p.2 p.1) f l) ps ∧ valid (foldl (λ f p, upd f p.2 p.1) f l).
Proof.
  intros Hc (Ha1 & Ha2 & Ha3). revert f. induction l as [|[v u] l IH]; intros f Hf Hl; [done|]. destruct (Hl (v, u)) as [Hu Hv]; [by left|]. simpl in Hu, Hv.
  unfold update. simpl. fold (update (replace_all u v 0 (render f ps)) l). rewrite replace_render; [|done|by eapply link_of|by apply Ha2|done|by apply apart_no_colon|].
  - apply IH; [|intros p Hp; apply Hl; by right]. intros x w. unfold upd. destruct (decide (x = u)) as [->|]; [|by apply Hf].
    destruct (f u) eqn:Ef; intros [= <-]; [by eapply Hf|done].
  - intros x Hx. destruct (decide (u = x)) as [->|Hne]; [by left|]. right. split; intros Hp; apply Hne; [by apply Ha1|symmetry; by apply Ha1].
Qed.
Lemma upd_some (l : list (text * text)) f x v : foldl (λ f p, upd f p.2 p.1) f l x = Some v → f x = Some v ∨ (v, x) ∈ l.
Proof.
  revert f. induction l as [|[w u] l IH]; intros f; simpl; [auto|]. intros H. apply IH in H as [H|H]; [|right; by right]. unfold upd in H.
  destruct (decide (x = u)) as [->|]; [|by left]. destruct (f u); [by left|]. injection H as ->. right. by left.
Qed.
Lemma upd_kept (l : list (text * text)) f x v : f x = Some v → foldl (λ f p, upd f p.2 p.1) f l x = Some v.
Proof.
  revert f. induction l as [|[w u] l IH]; intros f Hf; simpl; [done|]. apply IH. unfold upd. destruct (decide (x = u)) as [->|]; [|done]. by rewrite Hf.
Qed.
Lemma upd_all (l : list (text * text)) f x : x ∈ l.*2 → is_Some (foldl (λ f p, upd f p.2 p.1) f l x).
Proof.
  revert f. induction l as [|[w u] l IH]; intros f Hx; simpl in *; [by apply elem_of_nil in Hx|]. apply elem_of_cons in Hx as [->|Hx]; [|by apply IH].
  destruct (f u) as [v|] eqn:E; eexists; apply upd_kept; unfold upd; rewrite decide_True by done; by rewrite E.
Qed.
Lemma render_none ps : render (λ _, None) ps = whole ps.
Proof. induction ps as [|[c|u] ps IH]; [done| |]; rewrite render_cons, whole_cons, IH; done. Qed.
