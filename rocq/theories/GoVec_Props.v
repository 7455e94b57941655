(** * C71: the vector clocks of the GoVector logs tell what happened before what *)
From Verif Require Import GoVec_Proof.
Set Default Proof Using "Type".

(** Whatever the processes do, as long as each of them is started at most once: one entry's clock is below another's exactly
    if it happened before it. *)
Theorem C71_clocks_tell_what_happened_before ms i j e f :
  NoDup (starts ms) →
  g_log (grun ms) !! i = Some e → g_log (grun ms) !! j = Some f →
  before (g_log (grun ms)) i j ↔ clock_lt (e_clock e) (e_clock f).
Proof. intros H. by apply clock_order, (gi_log (starts ms)), grun_inv. Qed.

(** So entries are concurrent exactly if neither clock is below the other, and no two entries have the same clock. *)
Theorem C71_clocks_are_distinct ms i j e f :
  NoDup (starts ms) →
  g_log (grun ms) !! i = Some e → g_log (grun ms) !! j = Some f → (∀ p, at_ (e_clock e) p = at_ (e_clock f) p) → i = j.
Proof.
  intros Hnd He Hf Heq. pose proof (gi_log _ _ (grun_inv _ Hnd)) as HI.
  assert (∀ i j e f, g_log (grun ms) !! i = Some e → g_log (grun ms) !! j = Some f →
    (∀ p, at_ (e_clock e) p = at_ (e_clock f) p) → i < j → False) as Hlt.
  { clear i j e f He Hf Heq. intros i j e f He Hf Heq Hlt.
    assert (at_ (e_clock e) (e_proc f) ≠ 0) as Hne.
    { rewrite Heq. pose proof (li_pos _ HI _ _ Hf). unfold own in *. lia. }
    assert (rtc (edge (g_log (grun ms))) j i) as Hr.
    { apply (li_hb _ HI _ _ _ _ He Hf). unfold own. by rewrite Heq. }
    apply rtc_le in Hr. lia. }
  destruct (lt_eq_lt_dec i j) as [[H|H]|H]; [|done|]; exfalso.
  - exact (Hlt _ _ _ _ He Hf Heq H).
  - exact (Hlt _ _ _ _ Hf He (λ p, eq_sym (Heq p)) H).
Qed.

(** The entries of a process are numbered 1, 2, 3, ... by its own component. *)
Theorem C71_own_component_counts ms i e :
  NoDup (starts ms) → g_log (grun ms) !! i = Some e →
  at_ (e_clock e) (e_proc e) = length (filter (λ x, e_proc x = e_proc e) (take (S i) (g_log (grun ms)))).
Proof. intros H. apply (li_count _ (gi_log _ _ (grun_inv _ H))). Qed.

(** ** The entries of a call *)
Definition has (l : list entry) (n : nat) (p : string) (w : what) : Prop :=
  ∃ i e, l !! i = Some e ∧ i < n ∧ e_proc e = p ∧ e_what e = w.
Record chain (s : gst) : Prop := {
  ch_serve : ∀ i e k, g_log s !! i = Some e → e_what e = WServe k → ∃ p, has (g_log s) i p (WSend k);
  ch_reply : ∀ i e k, g_log s !! i = Some e → e_what e = WReply k →
    has (g_log s) i (e_proc e) (WServe k) ∨ has (g_log s) i (e_proc e) (WAccept k);
  ch_return : ∀ i e k, g_log s !! i = Some e → e_what e = WReturn k →
    has (g_log s) i (e_proc e) (WSend k) ∧ ∃ q, has (g_log s) i q (WReply k);
  ch_from : ∀ k c p, g_calls s !! k = Some c → c_from c = Some p → has (g_log s) (length (g_log s)) p (WSend k);
  ch_serving : ∀ k c, g_calls s !! k = Some c → c_srv c = Serving →
    has (g_log s) (length (g_log s)) (c_to c) (WServe k) ∨ has (g_log s) (length (g_log s)) (c_to c) (WAccept k);
  ch_replied : ∀ k c d, g_calls s !! k = Some c → c_srv c = Replied d → has (g_log s) (length (g_log s)) (c_to c) (WReply k);
  ch_noreq : ∀ k c, g_calls s !! k = Some c → c_srv c = Pending → is_Some (c_from c);
  ch_who : ∀ i e k, g_log s !! i = Some e → e_what e = WSend k → ∃ c, g_calls s !! k = Some c ∧ c_from c = Some (e_proc e);
  ch_nobody : ∀ i e k, g_log s !! i = Some e → e_what e = WAccept k → ∃ c, g_calls s !! k = Some c ∧ c_from c = None
}.
Lemma has_app l e n p w : has l n p w → has (l ++ [e]) n p w.
Proof. intros (i & f & H & Hr). exists i, f. split; [apply lookup_app_Some; by left|done]. Qed.
Lemma has_mono l n m p w : n ≤ m → has l n p w → has l m p w.
Proof. intros Hle (i & f & H & Hlt & Hr). exists i, f. split_and!; naive_solver lia. Qed.
Lemma has_new l e : has (l ++ [e]) (length (l ++ [e])) (e_proc e) (e_what e).
Proof. exists (length l), e. rewrite lookup_app_r, Nat.sub_diag by lia. rewrite app_length. simpl. split_and!; [done|lia|done..]. Qed.
Lemma has_grow l e p w : has l (length l) p w → has (l ++ [e]) (length (l ++ [e])) p w.
Proof. intros H. apply has_app. eapply has_mono; [|exact H]. rewrite app_length. lia. Qed.

(** One more entry, with its justification, and one call changed *)
Lemma chain_step s e s' f :
  chain s → g_log s' = g_log s ++ [e] →
  (∀ k, e_what e = WServe k → ∃ p, has (g_log s) (length (g_log s)) p (WSend k)) →
  (∀ k, e_what e = WReply k → has (g_log s) (length (g_log s)) (e_proc e) (WServe k) ∨ has (g_log s) (length (g_log s)) (e_proc e) (WAccept k)) →
  (∀ k, e_what e = WReturn k → has (g_log s) (length (g_log s)) (e_proc e) (WSend k) ∧ ∃ q, has (g_log s) (length (g_log s)) q (WReply k)) →
  (∀ k c, g_calls s' !! k = Some c → g_calls s !! k = Some c ∨
     (k = f ∧ (c_srv c = Pending → is_Some (c_from c)) ∧
      (∀ p, c_from c = Some p → has (g_log s') (length (g_log s')) p (WSend k)) ∧
      (c_srv c = Serving → has (g_log s') (length (g_log s')) (c_to c) (WServe k) ∨ has (g_log s') (length (g_log s')) (c_to c) (WAccept k)) ∧
      (∀ d, c_srv c = Replied d → has (g_log s') (length (g_log s')) (c_to c) (WReply k)))) →
  (∀ k c, g_calls s !! k = Some c → ∃ c', g_calls s' !! k = Some c' ∧ c_from c' = c_from c) →
  (∀ k, e_what e = WSend k → ∃ c, g_calls s' !! k = Some c ∧ c_from c = Some (e_proc e)) →
  (∀ k, e_what e = WAccept k → ∃ c, g_calls s' !! k = Some c ∧ c_from c = None) →
  chain s'.
Proof.
  intros [H1 H2 H3 H4 H5 H6 H7 H8 H9] El G1 G2 G3 G G4 G5 G6. split.
  - rewrite El. intros i g k [Hg|[-> ->]]%lookup_new Hw.
    + destruct (H1 _ _ _ Hg Hw) as [p Hp]. exists p. by apply has_app.
    + destruct (G1 _ Hw) as [p Hp]. exists p. by apply has_app.
  - rewrite El. intros i g k [Hg|[-> ->]]%lookup_new Hw.
    + destruct (H2 _ _ _ Hg Hw) as [p|p]; [left|right]; by apply has_app.
    + destruct (G2 _ Hw) as [p|p]; [left|right]; by apply has_app.
  - rewrite El. intros i g k [Hg|[-> ->]]%lookup_new Hw.
    + destruct (H3 _ _ _ Hg Hw) as [p [q Hq]]. split; [by apply has_app|]. exists q. by apply has_app.
    + destruct (G3 _ Hw) as [p [q Hq]]. split; [by apply has_app|]. exists q. by apply has_app.
  - intros k c p Hc Hp. destruct (G _ _ Hc) as [Ho|(-> & _ & Gf & _)]; [|by apply Gf].
    rewrite El. apply has_grow. by eapply H4.
  - intros k c Hc Hp. destruct (G _ _ Hc) as [Ho|(-> & _ & _ & Gf & _)]; [|by apply Gf].
    rewrite El. destruct (H5 _ _ Ho Hp); [left|right]; by apply has_grow.
  - intros k c d Hc Hp. destruct (G _ _ Hc) as [Ho|(-> & _ & _ & _ & Gf)]; [|by eapply Gf].
    rewrite El. apply has_grow. by eapply H6.
  - intros k c Hc Hp. destruct (G _ _ Hc) as [Ho|(-> & Gf & _)]; [by eapply H7|by apply Gf].
  - rewrite El. intros i g k [Hg|[-> ->]]%lookup_new Hw; [|by apply G5].
    destruct (H8 _ _ _ Hg Hw) as (c & Hc & <-). by apply G4.
  - rewrite El. intros i g k [Hg|[-> ->]]%lookup_new Hw; [|by apply G6].
    destruct (H9 _ _ _ Hg Hw) as (c & Hc & <-). by apply G4.
Qed.

Lemma record_shape p w d s c s' : record p w d s = Some (c, s') →
  g_log s' = g_log s ++ [Entry p w c] ∧ g_calls s' = g_calls s.
Proof. unfold record. destruct (g_clock s !! p); [|done]. intros E. by injection E as <- <-. Qed.

Lemma keep_from (m m' : gmap nat call) k c : m' = <[k := c]> m →
  (∀ c0, m !! k = Some c0 → c_from c = c_from c0) →
  ∀ k' c0, m !! k' = Some c0 → ∃ c', m' !! k' = Some c' ∧ c_from c' = c_from c0.
Proof.
  intros -> H k' c0 Hc. destruct (decide (k = k')) as [<-|Hne]; [rewrite lookup_insert; eauto|].
  rewrite lookup_insert_ne by done. eauto.
Qed.

Lemma gstep_chain s m : chain s → chain (gstep s m).
Proof.
  intros HC. pose proof HC as [H1 H2 H3 H4 H5 H6 H7 H8 H9].
  destruct m as [p|p|p g|k p q|k|k q|k|k|k]; unfold gstep.
  - destruct (g_clock s !! p); [done|]. eapply (chain_step _ _ _ 0 HC); [done|done..| | |done|done]; simpl; eauto.
  - split; simpl; try done.
    + intros k c r. rewrite lookup_fmap_Some. intros (c0 & <- & Hc) Hp. by eapply H4.
    + intros k c. rewrite lookup_fmap_Some. intros (c0 & <- & Hc) Hp. simpl in *.
      apply (H5 _ _ Hc). destruct (c_srv c0); try done.
    + intros k c r. rewrite lookup_fmap_Some. intros (c0 & <- & Hc) Hp. simpl in *.
      destruct (c_srv c0) eqn:E; try case_decide; try done. simplify_eq. by eapply H6.
    + intros k c. rewrite lookup_fmap_Some. intros (c0 & <- & Hc) Hp. simpl in *.
      apply (H7 _ _ Hc). destruct (c_srv c0); try case_decide; done.
    + intros i e k He Hw. destruct (H8 _ _ _ He Hw) as (c & Hc & Hf). exists (crash_call p c).
      by rewrite lookup_fmap, Hc.
    + intros i e k He Hw. destruct (H9 _ _ _ He Hw) as (c & Hc & Hf). exists (crash_call p c).
      by rewrite lookup_fmap, Hc.
  - destruct (record _ _ _ _) as [[c s']|] eqn:E; [|done]. apply record_shape in E as [El Ec].
    eapply (chain_step _ _ _ 0 HC El); try done; rewrite Ec; eauto.
  - destruct (g_calls s !! k) eqn:Ek; [done|].
    destruct (record _ _ _ _) as [[c s']|] eqn:E; [|done]. apply record_shape in E as [El Ec].
    eapply (chain_step _ _ _ k HC); [exact El|done..| | | |done].
    + simpl. rewrite Ec. intros k' c'.
      intros [[<- <-]|[_ Hc]]%lookup_insert_Some; [right|by left]. simpl. split_and!; try done.
      intros r [= <-]. rewrite El. apply (has_new _ (Entry _ _ _)).
    + eapply keep_from; [by simpl; rewrite Ec|]. intros c0. by rewrite Ek.
    + simpl. intros k' [= <-]. rewrite lookup_insert. eauto.
  - destruct (g_calls s !! k) as [[p q c v b]|] eqn:Ek; [|done]. destruct v; try done.
    destruct (H7 _ _ Ek eq_refl) as [r Hr]. simpl in Hr. subst p.
    destruct (record _ _ _ _) as [[c1 s']|] eqn:E; [|done]. apply record_shape in E as [El Ec].
    eapply (chain_step _ _ _ k HC); [exact El|..]; simpl; try done;
      try (by eapply keep_from; [by simpl; rewrite Ec|]; intros c0; rewrite Ek; intros [= <-]).
    + intros k' [= <-]. exists r. by eapply H4.
    + rewrite Ec. intros k' c'. intros [[<- <-]|[_ Hc]]%lookup_insert_Some; [right|by left]. simpl. split_and!; try done.
      * intros r' [= <-]. rewrite El. apply has_grow. by eapply H4.
      * intros _. left. rewrite El. apply (has_new _ (Entry _ _ _)).
  - destruct (g_calls s !! k) eqn:Ek; [done|].
    destruct (record _ _ _ _) as [[c s']|] eqn:E; [|done]. apply record_shape in E as [El Ec].
    eapply (chain_step _ _ _ k HC); [exact El|done..| | |done|].
    + simpl. rewrite Ec. intros k' c'.
      intros [[<- <-]|[_ Hc]]%lookup_insert_Some; [right|by left]. simpl. split_and!; try done.
      intros _. right. rewrite El. apply (has_new _ (Entry _ _ _)).
    + eapply keep_from; [by simpl; rewrite Ec|]. intros c0. by rewrite Ek.
    + simpl. intros k' [= <-]. rewrite lookup_insert. eauto.
  - destruct (g_calls s !! k) as [[p q c v b]|] eqn:Ek; [|done]. destruct v; try done.
    destruct (record _ _ _ _) as [[c1 s']|] eqn:E; [|done]. apply record_shape in E as [El Ec].
    eapply (chain_step _ _ _ k HC); [exact El|..]; simpl; try done;
      try (by eapply keep_from; [by simpl; rewrite Ec|]; intros c0; rewrite Ek; intros [= <-]).
    + intros k' [= <-]. apply (H5 _ _ Ek eq_refl).
    + rewrite Ec. intros k' c'. intros [[<- <-]|[_ Hc]]%lookup_insert_Some; [right|by left]. simpl. split_and!; try done.
      * intros r' ->. rewrite El. apply has_grow. by eapply H4.
      * intros d [= <-]. rewrite El. apply (has_new _ (Entry _ _ _)).
  - destruct (g_calls s !! k) as [[p q c v b]|] eqn:Ek; [|done]. destruct p as [p|]; [|done].
    destruct v as [| |d|]; try done. destruct b; [done|].
    destruct (record _ _ _ _) as [[c1 s']|] eqn:E; [|done]. apply record_shape in E as [El Ec].
    eapply (chain_step _ _ _ k HC); [exact El|..]; simpl; try done;
      try (by eapply keep_from; [by simpl; rewrite Ec|]; intros c0; rewrite Ek; intros [= <-]).
    + intros k' [= <-]. split; [by eapply H4|]. exists q. by eapply (H6 _ _ _ Ek).
    + rewrite Ec. intros k' c'. intros [[<- <-]|[_ Hc]]%lookup_insert_Some; [right|by left]. simpl. split_and!; try done.
      * intros r' [= <-]. rewrite El. apply has_grow. by eapply H4.
      * intros d' [= <-]. rewrite El. apply has_grow. by eapply (H6 _ _ _ Ek).
  - destruct (g_calls s !! k) as [[p q c v b]|] eqn:Ek; [|done]. destruct p as [p|]; [|done]. destruct b; [done|].
    destruct (record _ _ _ _) as [[c1 s']|] eqn:E; [|done]. apply record_shape in E as [El Ec].
    eapply (chain_step _ _ _ k HC); [exact El|..]; simpl; try done;
      try (by eapply keep_from; [by simpl; rewrite Ec|]; intros c0; rewrite Ek; intros [= <-]).
    rewrite Ec. intros k' c'. intros [[<- <-]|[_ Hc]]%lookup_insert_Some; [right|by left]. simpl. split_and!; try done.
    + intros r' [= <-]. rewrite El. apply has_grow. by eapply H4.
    + intros ->. rewrite El. destruct (H5 _ _ Ek eq_refl); [left|right]; by apply has_grow.
    + intros d ->. rewrite El. apply has_grow. by eapply (H6 _ _ _ Ek).
Qed.
Lemma grun_chain ms : chain (grun ms).
Proof.
  unfold grun. induction ms as [|m ms IH] using rev_ind.
  - split; simpl; intros *; rewrite ?lookup_nil, ?lookup_empty; done.
  - rewrite foldl_app. by apply gstep_chain.
Qed.

(** A completed call shows up as four entries in increasing clock order: the client's request, the server's start and response,
    and the client's return. *)
Theorem C71_a_call_is_ordered ms n e k :
  NoDup (starts ms) → g_log (grun ms) !! n = Some e → e_what e = WReturn k →
  ∃ a b c, a ∈ g_log (grun ms) ∧ b ∈ g_log (grun ms) ∧ c ∈ g_log (grun ms) ∧
    e_what a = WSend k ∧ e_what b = WServe k ∧ e_what c = WReply k ∧
    e_proc a = e_proc e ∧ e_proc b = e_proc c ∧
    clock_lt (e_clock a) (e_clock b) ∧ clock_lt (e_clock b) (e_clock c) ∧ clock_lt (e_clock c) (e_clock e).
Proof.
  intros Hnd He Hw. pose proof (grun_inv _ Hnd) as HI. pose proof (grun_chain ms) as HC.
  destruct (ch_return _ HC _ _ _ He Hw) as [(ia & a & Ha & Hla & Hpa & Hwa) [q (ic & c & Hc & Hlc & Hpc & Hwc)]].
  assert (∀ i j x y, g_log (grun ms) !! i = Some x → g_log (grun ms) !! j = Some y → i < j →
    e_proc x = e_proc y ∨ (∃ k, e_what x = WSend k ∧ e_what y = WServe k) ∨ (∃ k, e_what x = WReply k ∧ e_what y = WReturn k) →
    clock_lt (e_clock x) (e_clock y)) as Hcl.
  { intros i j x y Hx Hy Hlt Hor. apply (clock_order _ i j _ _ (gi_log _ _ HI) Hx Hy). apply tc_once. by exists x, y. }
  assert (has (g_log (grun ms)) ic (e_proc c) (WServe k)) as (ib & b & Hb & Hlb & Hpb & Hwb).
  { destruct (ch_reply _ HC _ _ _ Hc Hwc) as [H|H]; [done|]. exfalso.
    destruct H as (ib & b & Hb & Hlb & Hpb & Hwb).
    destruct (ch_who _ HC _ _ _ Ha Hwa) as (x & Hx & Hfx), (ch_nobody _ HC _ _ _ Hb Hwb) as (y & Hy & Hfy). congruence. }
  destruct (ch_serve _ HC _ _ _ Hb Hwb) as [p (ia' & a' & Ha' & Hla' & Hpa' & Hwa')].
  assert (ia' = ia) as ->.
  { destruct (gi_send _ _ HI _ _ _ Ha Hwa) as (x & Hx & Hfx), (gi_send _ _ HI _ _ _ Ha' Hwa') as (y & Hy & Hfy).
    eapply (C71_clocks_are_distinct ms); [done|done|done|]. intros r. congruence. }
  simplify_eq.
  exists a, b, c. split_and!; try done; try (by eapply elem_of_list_lookup_2).
  - eapply Hcl; [exact Ha|exact Hb|lia|]. right. left. by exists k.
  - eapply Hcl; [exact Hb|exact Hc|lia|]. by left.
  - eapply Hcl; [exact Hc|exact He|lia|]. right. right. by exists k.
Qed.

(** ** The claim fails if a process is started again: it counts from one, so later entries get clocks of earlier ones. *)
Theorem C71_a_restart_is_not_ordered_refuted :
  ∃ ms i j e f, g_log (grun ms) !! i = Some e ∧ g_log (grun ms) !! j = Some f ∧
    before (g_log (grun ms)) i j ∧ clock_lt (e_clock f) (e_clock e).
Proof.
  set (ms := [GStart "p"; GLog "p" "m"; GCrash "p"; GStart "p"]). set (d := Entry "" WInit ∅).
  exists ms, 1, 2, (nth 1 (g_log (grun ms)) d), (nth 2 (g_log (grun ms)) d).
  assert (g_log (grun ms) !! 1 = Some (nth 1 (g_log (grun ms)) d)) as H1 by (by vm_compute).
  assert (g_log (grun ms) !! 2 = Some (nth 2 (g_log (grun ms)) d)) as H2 by (by vm_compute).
  split; [done|]. split; [done|]. split.
  - apply tc_once. eexists _, _. split; [exact H1|]. split; [exact H2|]. split; [lia|left; by vm_compute].
  - split.
    + assert (e_clock (nth 2 (g_log (grun ms)) d) = {["p" := 1]}) as -> by (apply (bool_decide_unpack _); by vm_compute).
      intros p. unfold at_ at 1. destruct (decide ("p" = p)) as [<-|Hne]; [|rewrite lookup_singleton_ne by done; simpl; lia].
      rewrite lookup_singleton. apply (bool_decide_unpack _). by vm_compute.
    + exists "p". apply (bool_decide_unpack _). by vm_compute.
Qed.

(** ** The sample logs of the repository: plugins/govector/example_logs, up to the nonleaf process's second request *)
Definition leaf : string := "leaf_process.goveclogger".
Definition nonleaf : string := "nonleaf_process.goveclogger".
Definition rpc (k : nat) (log : list string) : list gmove :=
  [GCall k nonleaf leaf; GServe k] ++ map (GLog leaf) log ++ [GReply k; GReturn k].
Definition sample : list gmove :=
  [GStart leaf; GStart nonleaf; GAccept 0 nonleaf] ++ rpc 1 ["hello"] ++ rpc 2 ["hello nothing!"] ++ rpc 3 [] ++
  map (GLog nonleaf) ["ra: hello 0"; "rb: [hi bye]"; "rc: 0"; "rd: 0"; "re: ..."] ++ [GReply 0; GAccept 4 nonleaf; GCall 5 nonleaf leaf].
(** The clocks (leaf, nonleaf) in the log of a process *)
Definition clocks_of (p : string) (l : list entry) : list (nat * nat) :=
  map (λ e, (at_ (e_clock e) leaf, at_ (e_clock e) nonleaf)) (filter (λ e, e_proc e = p) l).
Example example_logs :
  clocks_of leaf (g_log (grun sample)) =
    [(1, 0); (2, 3); (3, 3); (4, 3); (5, 5); (6, 5); (7, 5); (8, 7); (9, 7)] ∧
  clocks_of nonleaf (g_log (grun sample)) =
    [(0, 1); (0, 2); (0, 3); (4, 4); (4, 5); (7, 6); (7, 7); (9, 8); (9, 9); (9, 10); (9, 11); (9, 12); (9, 13); (9, 14); (9, 15); (9, 16)].
Proof. by vm_compute. Qed.

(** The hypotheses are met, with a completed call and with concurrent entries. *)
Example C71_nonvacuous :
  NoDup (starts sample) ∧
  e_what <$> (g_log (grun sample) !! 7) = Some (WReturn 1) ∧
  (∃ e f, g_log (grun sample) !! 0 = Some e ∧ g_log (grun sample) !! 1 = Some f ∧
     ¬ clock_lt (e_clock e) (e_clock f) ∧ ¬ clock_lt (e_clock f) (e_clock e)).
Proof.
  split; [apply (bool_decide_unpack _); by vm_compute|]. split; [by vm_compute|]. set (d := Entry "" WInit ∅).
  exists (nth 0 (g_log (grun sample)) d), (nth 1 (g_log (grun sample)) d).
  split; [by vm_compute|]. split; [by vm_compute|]. split.
  - intros [H _]. specialize (H leaf). apply (bool_decide_pack _) in H. by vm_compute in H.
  - intros [H _]. specialize (H nonleaf). apply (bool_decide_pack _) in H. by vm_compute in H.
Qed.

Print Assumptions C71_clocks_tell_what_happened_before.
Print Assumptions C71_clocks_are_distinct.
Print Assumptions C71_own_component_counts.
Print Assumptions C71_a_call_is_ordered.
Print Assumptions C71_a_restart_is_not_ordered_refuted.
