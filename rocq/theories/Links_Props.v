(** * Properties of links in posts *)
From Verif Require Import Links_Proof.
From stdpp Require Import sets list.
Set Default Proof Using "Type".

(** ** C93 *)
(** The characters of links and of short links are these. *)
Theorem C93_characters c : (body c = true ↔ c ∈ allowed) ∧ (letter c = true ↔ c ∈ letters).
Proof.
  assert (body c = bool_decide (c ∈ allowed) ∧ letter c = bool_decide (c ∈ letters)) as [-> ->]; [|by rewrite !bool_decide_eq_true].
  destruct c as [[] [] [] [] [] [] [] []]; vm_compute; done.
Qed.
(** Every text is cut at its links in one way. *)
Theorem C93_cut s : ∃ ps, (cut ps ∧ whole ps = s) ∧ ∀ ps', cut ps' → whole ps' = s → ps' = ps.
Proof.
  destruct (cut_exists s) as (ps & Hc & Hw). exists ps. split; [done|]. intros ps' Hc' Hw'. rewrite <-Hw in Hw'. clear Hw. revert ps Hc Hw'.
  induction Hc' as [|c ps' Hc' IH Hn|u ps' Hc' IH Hu He]; intros ps Hc Hw; destruct Hc as [|c2 ps Hc Hn2|u2 ps Hc Hu2 He2]; try done; rewrite ?whole_cons in Hw; simpl in Hw.
  - by destruct (link_h _ Hu2) as [y ->].
  - injection Hw as <- Hw. f_equal. by apply IH.
  - destruct Hn. rewrite Hw. apply (prefix_starts u2); [done|by eexists].
  - by destruct (link_h _ Hu) as [y ->].
  - destruct Hn2. rewrite <-Hw. apply (prefix_starts u); [done|by eexists].
  - pose proof (match_at_link _ _ Hu He) as H1. pose proof (match_at_link _ _ Hu2 He2) as H2. rewrite Hw in H1. rewrite H1 in H2. injection H2 as <-.
    apply app_inv_head in Hw. f_equal. by apply IH.
Qed.
Lemma urls_of rs ps : cut ps → random rs ps → compose_urls rs (find_all 0 (whole ps)) = zip (short <$> rs) (links ps) ∧ (zip (short <$> rs) (links ps)).*2 = links ps ∧
  ∀ p, p ∈ zip (short <$> rs) (links ps) → p.2 ∈ links ps ∧ is_short p.1.
Proof.
  intros Hc [Hl Hr]. rewrite find_links by done. split; [done|]. split; [apply snd_zip; rewrite fmap_length; lia|].
  intros [v u] Hp. split; [by apply elem_of_zip_r in Hp|]. apply elem_of_zip_l in Hp. simpl in *. apply elem_of_list_fmap in Hp as (r & -> & Hr').
  rewrite Forall_forall in Hr. destruct (Hr _ Hr') as [H1 H2]. by exists r.
Qed.
(** All links of the text are stored with a short one each, in order, unless the call fails; then the text is as before. *)
Theorem C93_stored ps rs db m : cut ps → random rs ps → let o := compose_text (whole ps) rs db m in
  if o_fails o then o_text o = whole ps else o_stored o = zip (short <$> rs) (links ps) ∧ (o_stored o).*2 = links ps ∧ o_urls o = o_stored o.
Proof.
  intros Hc Hr. destruct (urls_of rs ps Hc Hr) as (E & E2 & _). unfold compose_text. rewrite E. simpl.
  destruct (zip (short <$> rs) (links ps)) as [|p l] eqn:Ez; [by destruct m|]. destruct db; [destruct m; simpl; auto|done|done].
Qed.
(** If links are apart, each is exchanged for a short one that is stored for it, and nothing else changes. *)
Theorem C93_exchanged ps rs : cut ps → apart ps → random rs ps → let o := compose_text (whole ps) rs Fine true in
  o_fails o = false ∧ ∃ qs, o_text o = concat qs ∧ Forall2 (exchanged (o_stored o)) ps qs.
Proof.
  intros Hc Ha Hr. destruct (urls_of rs ps Hc Hr) as (E & E2 & Hp). unfold compose_text. rewrite E. simpl.
  set (l := zip (short <$> rs) (links ps)) in *. set (f := foldl (λ f p, upd f p.2 p.1) (λ _, None) l).
  assert (Forall2 (exchanged l) ps (map (shown f) ps)) as Hq.
  { assert (∀ u, u ∈ links ps → u ∈ l.*2) as Hin by (rewrite E2; done). clearbody l. clear -Hin. induction ps as [|[c|u] ps IH]; simpl; [constructor| |].
    - constructor; [done|]. by apply IH.
    - constructor; [|apply IH; intros x Hx; apply Hin; by right]. simpl. destruct (upd_all l (λ _, None) u) as [v Hv]; [apply Hin; by left|].
      unfold f. rewrite Hv. simpl. apply upd_some in Hv as [Hv|Hv]; done. }
  assert (update (whole ps) l = concat (map (shown f) ps)) as Hu.
  { rewrite <-(render_none ps). by destruct (update_render ps l (λ _, None) Hc Ha ltac:(done) Hp) as [-> _]. }
  destruct l as [|p l'] eqn:El.
  - split; [done|]. exists (map (shown f) ps). split; [|done]. rewrite <-Hu. done.
  - split; [done|]. exists (map (shown f) ps). split; [exact Hu|done].
Qed.

(** ** What does not hold *)
Definition ra : text := txt "aaaaaaaaaa".
Definition rb : text := txt "bbbbbbbbbb".
(** A link that is the beginning of another one damages it: what replaces the other one is stored for none. *)
Theorem C93_beginning_refuted : let o := compose_text (txt "http://x http://xy") [ra; rb] Fine true in
  o_fails o = false ∧ o_text o = txt "http://short-url/aaaaaaaaaa http://short-url/aaaaaaaaaay" ∧ o_stored o = [(short ra, txt "http://x"); (short rb, txt "http://xy")].
Proof. vm_compute. done. Qed.
(** A link to the beginning of the short links' host damages short links. *)
Theorem C93_host_refuted : let o := compose_text (txt "http://x http://short") [ra; rb] Fine true in
  o_fails o = false ∧ o_text o = txt "http://short-url/bbbbbbbbbb-url/aaaaaaaaaa http://short-url/bbbbbbbbbb".
Proof. vm_compute. done. Qed.
(** With a colon after a link, text that is no link is changed. *)
Theorem C93_colon_refuted : let o := compose_text (txt "http://b http://ahttp://b") [ra; rb] Fine true in
  o_fails o = false ∧ o_stored o = [(short ra, txt "http://b"); (short rb, txt "http://ahttp")] ∧ o_text o = txt "http://short-url/aaaaaaaaaa http://short-url/bbbbbbbbbb://short-url/aaaaaaaaaa".
Proof. vm_compute. done. Qed.
(** Links end before paths, queries and ports. *)
Theorem C93_path_refuted : let o := compose_text (txt "https://x.org/a?b") [ra] Fine true in
  o_stored o = [(short ra, txt "https://x.org")] ∧ o_text o = txt "http://short-url/aaaaaaaaaa/a?b".
Proof. vm_compute. done. Qed.
(** A link that occurs twice is stored twice, and one of the short links is not used. *)
Theorem C93_twice_refuted : let o := compose_text (txt "http://x http://x") [ra; rb] Fine true in
  o_stored o = [(short ra, txt "http://x"); (short rb, txt "http://x")] ∧ o_text o = txt "http://short-url/aaaaaaaaaa http://short-url/aaaaaaaaaa".
Proof. vm_compute. done. Qed.
(** A call that fails can have stored links, for which there is no text. *)
Theorem C93_failed_refuted : let o := compose_text (txt "http://x") [ra] Fine false in o_fails o = true ∧ o_stored o = [(short ra, txt "http://x")].
Proof. vm_compute. done. Qed.

(** ** The hypotheses can be met *)
Definition example : list piece :=
  (Char <$> txt "see (") ++ [Link (txt "http://x.org)")] ++ (Char <$> txt " or ") ++ [Link (txt "https://y")] ++ (Char <$> txt "/1, http://, ") ++ [Link (txt "http://x.org)")] ++ (Char <$> txt " end").
Example C93_nonvacuous : cut example ∧ apart example ∧ random [ra; rb; ra] example ∧
  whole example = txt "see (http://x.org) or https://y/1, http://, http://x.org) end" ∧
  o_text (compose_text (whole example) [ra; rb; ra] Fine true) = txt "see (http://short-url/aaaaaaaaaa or http://short-url/bbbbbbbbbb/1, http://, http://short-url/aaaaaaaaaa end".
Proof.
  assert (links example = [txt "http://x.org)"; txt "https://y"; txt "http://x.org)"]) as El by (vm_compute; reflexivity).
  split; [|split; [|split; [|split; vm_compute; reflexivity]]].
  - assert (is_link (txt "http://x.org)") ∧ is_link (txt "https://y")) as [L1 L2].
    { split; [exists http, (txt "x.org)")|exists https, (txt "y")]; (split; [auto|]); (split; [done|]); (split; [|reflexivity]); repeat constructor. }
    unfold example, txt. simpl.
    repeat first [apply cut_nil|apply cut_char; [|apply starts_match; vm_compute; reflexivity]|apply cut_link; [|assumption|intros c Hc; vm_compute in Hc; by injection Hc as <-]].
  - unfold apart. rewrite El. split; [|split].
    + intros u v Hu Hv Hp. apply is_prefix_spec in Hp. set_unfold. destruct Hu as [-> |[-> |[-> |[]]]]; destruct Hv as [-> |[-> |[-> |[]]]]; try done; by vm_compute in Hp.
    + intros u Hu Hp. apply is_prefix_spec in Hp. set_unfold. destruct Hu as [-> |[-> |[-> |[]]]]; by vm_compute in Hp.
    + intros a u b E. unfold example, txt in E. simpl in E.
      repeat (destruct a as [|? a]; [try discriminate E; injection E as _ <-; by vm_compute|try discriminate E; simpl in E; injection E as _ E]).
  - split; [by rewrite El|]. repeat constructor; done.
Qed.

Print Assumptions C93_characters.
Print Assumptions C93_cut.
Print Assumptions C93_stored.
Print Assumptions C93_exchanged.
Print Assumptions C93_beginning_refuted.
Print Assumptions C93_host_refuted.
Print Assumptions C93_colon_refuted.
Print Assumptions C93_path_refuted.
Print Assumptions C93_twice_refuted.
Print Assumptions C93_failed_refuted.
Print Assumptions C93_nonvacuous.
