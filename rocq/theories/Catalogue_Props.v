(** * Properties of the catalogue *)
From Verif Require Import Catalogue_Proof.
From stdpp Require Import list.
Set Default Proof Using "Type".

(** ** C90 *)
(** A sock that was added, with no other call about it since the call began, is there with exactly the details and tags of the call. *)
Theorem C90_added fk es1 w1 s id u info tags w1' es2 w2 r : history fk es1 w1 → target (AddSock id u info tags) = Some s → alone_before w1 s (AddSock id u info tags) →
  step fk (Start (AddSock id u info tags)) w1 = Some w1' → run fk (spares s) w1' es2 w2 →
  w_calls w2 !! length (w_calls w1) = Some (AddSock id u info tags, Done (Added r)) →
  r = s ∧ (∀ info', has_sock w2 s info' ↔ info' = info) ∧ ∀ n, tagged w2 s n ↔ n ∈ tags.
Proof.
  intros Hh Ht Ha Hs Hr Hd. destruct (alone_run fk es1 w1 s _ es2 w2 _ Hh Ha Ht ltac:(done) _ Hs Hr Hd) as [Hi Hso]. by eapply solo_added; [apply (i_ids _ Hi)|].
Qed.
(** A call that adds a sock and succeeds gives the id asked for, or the new one. *)
Theorem C90_added_id fk es w t id u info tags r : history fk es w → w_calls w !! t = Some (AddSock id u info tags, Done (Added r)) → id ≠ "" ∧ r = id ∨ id = "" ∧ r = u.
Proof.
  intros Hh Ht. pose proof (inv_history _ _ _ Hh) as Hi. pose proof (i_done _ Hi _ _ _ Ht) as Hst. assert (r = sid id u) as ->.
  { remember (Ret (Added r)) as p eqn:E. remember (AddSock id u info tags) as o eqn:Eo.
    destruct Hst as [o| | | |id' u' info' tags' m dn rest ids Ht' Hm Hgi|id' u' info' tags' dn rest Hgi| | | | |o r' Hq|o]; simplify_eq; try done.
    - simpl in E. unfold add_sock in E. by case_decide.
    - destruct (each_cases (w_db w) m dn rest ids (link_all (sid id u)) Hm Hgi) as [(ids' & Ee & Hg')|(n' & r1 & r2 & ids' & -> & Hn' & Hg' & Ee)]; rewrite Ee in E; [|done].
      destruct ids'; simpl in E; by simplify_eq.
    - destruct rest; simpl in E; by simplify_eq. }
  unfold sid. case_decide; auto.
Qed.
(** A sock that was deleted, with no other call about it since the call began, is not there. *)
Theorem C90_deleted fk es1 w1 s w1' es2 w2 : history fk es1 w1 → s ≠ "" → alone_before w1 s (DeleteSock s) → step fk (Start (DeleteSock s)) w1 = Some w1' →
  run fk (spares s) w1' es2 w2 → w_calls w2 !! length (w_calls w1) = Some (DeleteSock s, Done Ok) → (∀ info, ¬ has_sock w2 s info) ∧ ∀ n, ¬ tagged w2 s n.
Proof.
  intros Hh Hne Ha Hs Hr Hd. destruct (alone_run fk es1 w1 s _ es2 w2 _ Hh Ha eq_refl ltac:(naive_solver) _ Hs Hr Hd) as [Hi Hso]. inversion Hso as [| | | | | | | | | |? Hl Hrow]; subst.
  split; [exact Hrow|]. intros n (i & Hin & _). by apply Hl in Hin.
Qed.
(** What is stored came from a call. *)
Theorem C90_origin fk es w : history fk es w →
  NoDup (d_socks (w_db w)).*1 ∧
  (∀ s info, has_sock w s info → ∃ t id u tags th, w_calls w !! t = Some (AddSock id u info tags, th) ∧ target (AddSock id u info tags) = Some s) ∧
  (∀ s n, tagged w s n → ∃ t id u info tags th, w_calls w !! t = Some (AddSock id u info tags, th) ∧ target (AddSock id u info tags) = Some s ∧ n ∈ tags).
Proof.
  intros Hh. pose proof (inv_history _ _ _ Hh) as Hi. split; [apply (i_key _ Hi)|]. split.
  - intros s info H. destruct (i_socks _ Hi _ _ H) as (t & id & u & tags & th & Ht & <-). by exists t, id, u, tags, th.
  - intros s n (i & Hl & Hn). destruct (i_links _ Hi _ _ Hl) as (t & id & u & info & tags & th & n' & Ht & <- & Hn' & Hin).
    exists t, id, u, info, tags, th. split; [done|]. split; [done|]. assert (n = n') as ->; [|done].
    apply elem_of_list_lookup in Hn as [a Ha]. apply elem_of_list_lookup in Hin as [b Hb].
    assert (a = b) as ->; [|by simplify_eq]. eapply (NoDup_lookup _ _ _ i (i_ids _ Hi)); rewrite list_lookup_fmap; [by rewrite Ha|by rewrite Hb].
Qed.
(** An answer to a call that reads is the one that the call would get alone at some moment while it ran. *)
Theorem C90_answered fk es w t o r : history fk es w → w_calls w !! t = Some (o, Done r) → reads o → r ≠ Failed →
  ∃ es1 es2 w1 p, es = es1 ++ es2 ∧ history fk es1 w1 ∧ w_calls w1 !! t = Some (o, Running p) ∧ answers fk w1 o r.
Proof. intros Hh Ht Ho Hr. by destruct (answered _ _ _ Hh _ _ _ Ht Ho). Qed.
(** List and Count: the socks that have a tag that is asked for, each once, cut into pages. *)
Theorem C90_list fk es w tags : history fk es w → ∃ l : list sock,
  NoDup l.*1.*1 ∧
  (∀ s info, (∃ ns, (s, info, ns) ∈ l) ↔ has_sock w s info ∧ ∃ n, tagged w s n ∧ (tags = [] ∨ n ∈ tags)) ∧
  (clean w → ∀ s info ns, (s, info, ns) ∈ l → NoDup ns ∧ ∀ n, n ∈ ns ↔ tagged w s n) ∧
  (∀ r, answers fk w (Count tags) r ↔ r = Num (length l)) ∧
  (∀ order page size r, (0 < page)%nat → (0 < size)%nat →
    answers fk w (List tags order (Z.of_nat page) (Z.of_nat size)) r ↔ r = Socks (take size (drop ((page - 1) * size) l))).
Proof.
  intros Hh. pose proof (inv_history _ _ _ Hh) as Hi. exists (list_all tags "" (w_db w)). split; [apply list_nodup, (i_key _ Hi)|]. split; [apply list_in|]. split; [|split].
  - intros Hc s info ns Hin. by apply (list_names _ _ _ _ _ _ (clean_plain _ Hi Hc)) in Hin.
  - intros r. rewrite (query_answers _ _ _ (q_count tags)) by done. by rewrite (count_list _ _ "" (i_key _ Hi)).
  - intros order page size r Hp Hs. rewrite (query_answers _ _ _ (q_list tags order (Z.of_nat page) (Z.of_nat size))) by done.
    unfold q_list. change (list_all tags order (w_db w)) with (list_all tags "" (w_db w)). by rewrite cut_page.
Qed.
Lemma take_sum {A : Type} a b (l : list A) : take (a + b) l = take a l ++ take b (drop a l).
Proof. revert l. induction a as [|a IH]; intros [|x l]; simpl; [done|done|by destruct b|by rewrite IH]. Qed.
(** The pages one after the other are the whole list. *)
Theorem C90_pages fk es w tags order size k : history fk es w → (0 < size)%nat → ∃ l pages : list sock, ∃ parts,
  length parts = k ∧ pages = concat parts ∧
  (∀ j p, parts !! j = Some p → ∀ r, answers fk w (List tags order (Z.of_nat (S j)) (Z.of_nat size)) r ↔ r = Socks p) ∧
  (∀ r, answers fk w (Count tags) r ↔ r = Num (length l)) ∧ pages = take (k * size) l.
Proof.
  intros Hh Hs. destruct (C90_list fk es w tags Hh) as (l & _ & _ & _ & Hc & Hl).
  exists l, (take (k * size) l), ((λ j, take size (drop (j * size) l)) <$> seq 0 k). split; [by rewrite fmap_length, seq_length|]. split; [|split; [|done]].
  - clear Hl Hc. induction k as [|k IH]; [done|]. rewrite seq_S, fmap_app, concat_app, <-IH. simpl. rewrite app_nil_r.
    replace (size + k * size)%nat with (k * size + size)%nat by lia. apply take_sum.
  - intros j p Hj r. rewrite list_lookup_fmap in Hj. apply fmap_Some in Hj as (x & Hx & ->). apply lookup_seq in Hx as [-> _]. simpl.
    rewrite Hl by lia. by replace (S j - 1)%nat with j by lia.
Qed.
(** Get: the sock with its tags, if it is there and has tags. *)
Theorem C90_get fk es w id r : history fk es w → clean w → answers fk w (Get id) r →
  (∃ info ns, r = One (id, info, ns) ∧ has_sock w id info ∧ ns ≠ [] ∧ NoDup ns ∧ ∀ n, n ∈ ns ↔ tagged w id n) ∨
  (r = Failed ∧ ∀ info, has_sock w id info → ∀ n, ¬ tagged w id n).
Proof.
  intros Hh Hc Ha. pose proof (inv_history _ _ _ Hh) as Hi. apply (query_answers _ _ _ (q_get id)) in Ha; [|done].
  destruct (q_get id (w_db w)) as [| | | |[[s info] ns]| | |] eqn:E; try (exfalso; unfold q_get in E; destruct (group _); done).
  - left. destruct (get_one _ _ _ _ _ (clean_plain _ Hi Hc) E) as (-> & Hin & [n Hn] & Hnd & Hns). exists info, ns. split; [done|]. split; [done|]. split; [|done]. apply Hns in Hn. intros ->. by apply elem_of_nil in Hn.
  - right. split; [done|]. intros info Hin n Hn. destruct (get_found _ _ _ _ Hin Hn) as [x Hx]. congruence.
Qed.
(** So a sock that was added with tags can be fetched, as long as no other call is about it. *)
Theorem C90_add_get fk es1 w1 s id u info tags w1' es2 w2 r : history fk es1 w1 → target (AddSock id u info tags) = Some s → alone_before w1 s (AddSock id u info tags) →
  step fk (Start (AddSock id u info tags)) w1 = Some w1' → run fk (spares s) w1' es2 w2 →
  w_calls w2 !! length (w_calls w1) = Some (AddSock id u info tags, Done (Added r)) → tags ≠ [] → clean w2 →
  ∃ ns, answers fk w2 (Get r) (One (r, info, ns)) ∧ NoDup ns ∧ ∀ n, n ∈ ns ↔ n ∈ tags.
Proof.
  intros Hh Ht Ha Hs Hr Hd Hne Hc. destruct (C90_added _ _ _ _ _ _ _ _ _ _ _ _ Hh Ht Ha Hs Hr Hd) as (-> & Hrow & Htag).
  assert (inv w2) as Hi. { eapply inv_run; [exact Hr|]. eapply inv_step; [exact Hs|]. by eapply inv_history. }
  destruct tags as [|n tags]; [done|]. assert (tagged w2 s n) as Hn by (apply Htag; set_solver). assert (has_sock w2 s info) as Hin by (by apply Hrow).
  destruct (get_found _ _ _ _ Hin Hn) as [[[s' info'] ns] Hx]. destruct (get_one _ _ _ _ _ (clean_plain _ Hi Hc) Hx) as (-> & Hin' & _ & Hnd & Hns).
  apply Hrow in Hin' as ->. exists ns. split; [by apply (query_answers _ _ _ (q_get s))|]. split; [done|]. intros n'. rewrite Hns. apply Htag.
Qed.
(** Tags: those of the calls that succeeded, for good, and only ones that some call gave. *)
Theorem C90_tags fk es w t o r es' w' : history fk es w → w_calls w !! t = Some (o, Done r) → r ≠ Failed → run fk (λ _ _, True) w es' w' →
  ∃ l, (∀ a, answers fk w' Tags a ↔ a = Names l) ∧ (∀ n, n ∈ adds o → n ∈ l) ∧ ∀ n, n ∈ l → ∃ t' o' th, w_calls w' !! t' = Some (o', th) ∧ n ∈ adds o'.
Proof.
  intros Hh Ht Hr Hrun. pose proof (inv_history _ _ _ Hh) as Hi. pose proof (inv_run _ _ _ _ _ Hrun Hi) as Hi'. exists (d_tags (w_db w')).*2. split; [|split].
  - intros a. by apply (query_answers _ _ _ q_tags).
  - intros n Hn. apply (done_tags _ _ _ _ _ Hi Ht Hr) in Hn. apply elem_of_list_fmap in Hn as (x & -> & Hx). apply elem_of_list_fmap. exists x. split; [done|]. by eapply tags_run.
  - intros n Hn. apply elem_of_list_fmap in Hn as ([i m] & -> & Hx). by eapply (i_tags _ Hi').
Qed.
(** Tags are not repeated if calls that add tags do not overlap, whatever fails. *)
Theorem C90_tags_once fk es w : run fk one_adder started es w → ∃ l, NoDup l ∧ ∀ a, answers fk w Tags a ↔ a = Names l.
Proof. intros Hr. exists (d_tags (w_db w)).*2. split; [apply (u_names _ (uq_run _ _ _ Hr))|]. intros a. by apply (query_answers _ _ _ q_tags). Qed.

(** ** What does not hold *)
Fixpoint play (fk : bool) (es : list event) (w : world) : option world :=
  match es with [] => Some w | e :: es => match step fk e w with Some w' => play fk es w' | None => None end end.
Lemma run_cons fk (P : world → event → Prop) w e w1 es w2 : P w e → step fk e w = Some w1 → run fk P w1 es w2 → run fk P w (e :: es) w2.
Proof.
  intros HP Hs Hr. induction Hr as [w1|w1 es w2 e' w3 Hr IH HP' Hs'].
  - apply (run_snoc fk P w [] w e w1); [apply run_nil|done|done].
  - change (e :: es ++ [e']) with ((e :: es) ++ [e']). eapply run_snoc; eauto.
Qed.
Lemma play_run fk es w w' : play fk es w = Some w' → run fk (λ _ _, True) w es w'.
Proof.
  revert w. induction es as [|e es IH]; simpl; intros w H; [simplify_eq; apply run_nil|]. destruct (step fk e w) as [w1|] eqn:Hs; [|done]. eapply run_cons; eauto.
Qed.
Definition sparing (s : string) (e : event) : bool := match e with Start o => bool_decide (target o ≠ Some s) | _ => true end.
Lemma play_spares fk s es w w' : forallb (sparing s) es = true → play fk es w = Some w' → run fk (spares s) w es w'.
Proof.
  revert w. induction es as [|e es IH]; simpl; intros w Hsp H; [simplify_eq; apply run_nil|]. apply andb_true_iff in Hsp as [He Hsp].
  destruct (step fk e w) as [w1|] eqn:Hs; [|done]. eapply run_cons; [|exact Hs|by apply IH]. destruct e; [|exact I..]. simpl in *. by apply bool_decide_eq_true in He.
Qed.
Definition steps (t n : nat) : list event := replicate n (Step t Fine).
(** A sock without tags is added but cannot be fetched and is not listed or counted. *)
Theorem C90_untagged_refuted : ∃ es w, history true es w ∧ w_calls w !! 0%nat = Some (AddSock "a" "u" "i" [], Done (Added "a")) ∧ has_sock w "a" "i" ∧
  answers true w (Get "a") Failed ∧ answers true w (List [] "" 1 10) (Socks []) ∧ answers true w (Count []) (Num 0).
Proof.
  exists (Start (AddSock "a" "u" "i" []) :: steps 0 4). eexists. split; [apply play_run; vm_compute; reflexivity|]. split; [reflexivity|]. split; [by apply elem_of_list_here|].
  split; [by apply (query_answers _ _ _ (q_get "a"))|]. split; [by apply (query_answers _ _ _ (q_list [] "" 1 10))|by apply (query_answers _ _ _ (q_count []))].
Qed.
(** An update that fails loses the sock that was there. *)
Theorem C90_update_refuted : ∃ es w, history true es w ∧ w_calls w !! 0%nat = Some (AddSock "a" "u" "i" ["x"], Done (Added "a")) ∧
  w_calls w !! 1%nat = Some (AddSock "a" "u" "j" ["x"], Done Failed) ∧ (∀ info, ¬ has_sock w "a" info) ∧ answers true w (Get "a") Failed.
Proof.
  exists (Start (AddSock "a" "u" "i" ["x"]) :: steps 0 6 ++ Start (AddSock "a" "u" "j" ["x"]) :: steps 1 2 ++ [Step 1 Refused]). eexists. split; [apply play_run; vm_compute; reflexivity|].
  split; [reflexivity|]. split; [reflexivity|]. split; [intros info H; by apply elem_of_nil in H|by apply (query_answers _ _ _ (q_get "a"))].
Qed.
(** Two calls at the same time store a tag twice. *)
Theorem C90_tags_twice_refuted : ∃ es w, history true es w ∧ answers true w Tags (Names ["x"; "x"]).
Proof.
  exists [Start (AddTags ["x"]); Start (AddTags ["x"]); Step 0 Fine; Step 1 Fine; Step 0 Fine; Step 1 Fine]. eexists. split; [apply play_run; vm_compute; reflexivity|].
  by apply (query_answers _ _ _ q_tags).
Qed.
(** A page or a size below zero panics. *)
Theorem C90_page_refuted : answers true started (List [] "" (-1) 10) Panic ∧ answers true started (List [] "" 1 (-10)) Panic.
Proof. split; [by apply (query_answers _ _ _ (q_list [] "" (-1) 10))|by apply (query_answers _ _ _ (q_list [] "" 1 (-10)))]. Qed.
(** A tag with a comma comes back as two. *)
Theorem C90_comma_refuted : ∃ es w, history true es w ∧ w_calls w !! 0%nat = Some (AddSock "a" "u" "i" ["x,y"], Done (Added "a")) ∧ answers true w (Get "a") (One ("a", "i", ["x"; "y"])).
Proof.
  exists (Start (AddSock "a" "u" "i" ["x,y"]) :: steps 0 6). eexists. split; [apply play_run; vm_compute; reflexivity|]. split; [reflexivity|].
  apply (query_answers _ _ _ (q_get "a")); [done|]. vm_compute. reflexivity.
Qed.
(** The order that is asked for does not matter to the answer. *)
Theorem C90_order_refuted fk es w tags o1 o2 page size r : history fk es w → answers fk w (List tags o1 page size) r → answers fk w (List tags o2 page size) r.
Proof. intros _ H. apply (query_answers _ _ _ (q_list tags o1 page size)) in H; [|done]. by apply (query_answers _ _ _ (q_list tags o2 page size)). Qed.
(** Calls about a sock at the same time: both succeed, and it has the details of one and the tags of none of them alone. *)
Theorem C90_overlap_refuted : ∃ es w, history false es w ∧ w_calls w !! 0%nat = Some (AddSock "a" "u" "i" ["x"], Done (Added "a")) ∧
  w_calls w !! 1%nat = Some (AddSock "a" "u" "j" ["y"], Done (Added "a")) ∧ answers false w (Get "a") (One ("a", "j", ["x"; "y"])).
Proof.
  exists (Start (AddSock "a" "u" "i" ["x"]) :: steps 0 5 ++ Start (AddSock "a" "u" "j" ["y"]) :: steps 1 4 ++ [Step 0 Fine; Step 1 Fine; Step 1 Fine]).
  eexists. split; [apply play_run; vm_compute; reflexivity|]. split; [reflexivity|]. split; [reflexivity|].
  apply (query_answers _ _ _ (q_get "a")); [done|]. vm_compute. reflexivity.
Qed.

(** ** The hypotheses can be met *)
Example C90_nonvacuous : ∃ es1 w1 w1' es2 w2,
  history true es1 w1 ∧ (∃ i, (i, "x") ∈ d_tags (w_db w1)) ∧ has_sock w1 "a" "old" ∧ alone_before w1 "a" (AddSock "a" "u" "i" ["x"; "y"; "x"]) ∧
  step true (Start (AddSock "a" "u" "i" ["x"; "y"; "x"])) w1 = Some w1' ∧ run true (spares "a") w1' es2 w2 ∧
  w_calls w2 !! length (w_calls w1) = Some (AddSock "a" "u" "i" ["x"; "y"; "x"], Done (Added "a")) ∧
  w_calls w2 !! S (length (w_calls w1)) = Some (AddSock "" "v" "k" ["x"; "z"], Done (Added "v")) ∧
  answers true w2 (Get "a") (One ("a", "i", ["y"; "x"])) ∧ answers true w2 (Count ["x"]) (Num 2) ∧ answers true w2 (Count ["z"; "y"]) (Num 2) ∧ answers true w2 (Count ["z"]) (Num 1) ∧
  answers true w2 (List [] "" 2 1) (Socks [("v", "k", ["x"; "z"])]) ∧ answers true w2 Tags (Names ["x"; "y"; "z"]).
Proof.
  exists (Start (AddSock "a" "u" "old" ["x"]) :: steps 0 6). eexists. eexists.
  exists (steps 1 8 ++ Start (AddSock "" "v" "k" ["x"; "z"]) :: steps 2 5). eexists.
  split; [apply play_run; vm_compute; reflexivity|]. split; [exists 1%nat; by apply elem_of_list_here|]. split; [by apply elem_of_list_here|]. split.
  { split; [|done]. intros [|t'] o' th H _ p; simpl in H; [|done]. by simplify_eq. }
  split; [reflexivity|]. split; [apply play_spares; vm_compute; reflexivity|].
  split; [vm_compute; reflexivity|]. split; [vm_compute; reflexivity|].
  split; [apply (query_answers _ _ _ (q_get "a")); [done|vm_compute; reflexivity]|].
  split; [apply (query_answers _ _ _ (q_count ["x"])); [done|vm_compute; reflexivity]|].
  split; [apply (query_answers _ _ _ (q_count ["z"; "y"])); [done|vm_compute; reflexivity]|].
  split; [apply (query_answers _ _ _ (q_count ["z"])); [done|vm_compute; reflexivity]|].
  split; [apply (query_answers _ _ _ (q_list [] "" 2 1)); [done|vm_compute; reflexivity]|].
  apply (query_answers _ _ _ q_tags); [done|vm_compute; reflexivity].
Qed.
Print Assumptions C90_added.
Print Assumptions C90_added_id.
Print Assumptions C90_deleted.
Print Assumptions C90_origin.
Print Assumptions C90_answered.
Print Assumptions C90_list.
Print Assumptions C90_pages.
Print Assumptions C90_get.
Print Assumptions C90_add_get.
Print Assumptions C90_tags.
Print Assumptions C90_tags_once.
Print Assumptions C90_untagged_refuted.
Print Assumptions C90_update_refuted.
Print Assumptions C90_tags_twice_refuted.
Print Assumptions C90_page_refuted.
Print Assumptions C90_comma_refuted.
Print Assumptions C90_order_refuted.
Print Assumptions C90_overlap_refuted.
