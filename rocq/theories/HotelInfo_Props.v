(** * Properties of rates and profiles *)
From Verif Require Import HotelInfo_Proof.
From stdpp Require Import list.
Set Default Proof Using "Type".

(** ** C96 *)
(** Whatever happens, what is answered was inserted, and is of the hotels asked for, in their order, a profile for each; or it is an empty profile. *)
Theorem C96_sound es w t k ids l : history es w → answered w t (Get k ids) (Got l) →
  ∃ vs, l = concat vs ∧ Forall2 (λ i v, ∀ x, x ∈ v → x.1 = i ∧ inserted es k x ∨ k = Profile ∧ x = no_item) ids vs.
Proof.
  intros Hh Ha. destruct (from_history _ _ Hh) as [[_ Hc] Hin]. specialize (Hc _ _ _ Ha). apply said in Hc as (vs & Hf & ->). exists vs. split; [done|].
  eapply Forall2_impl; [exact Hf|]. intros i v Hv x Hx. destruct (Hv x Hx) as [[? ?]|?]; [left; auto|by right].
Qed.
(** If documents are inserted before the calls, and what the database answers can be read, the answer has exactly what there is for each hotel,
    however calls fail, are killed and interleave, and whatever the cache drops. *)
Theorem C96_exact es w t k ids l data : history es w → calm k data es → answered w t (Get k ids) (Got l) → ∃ vs, l = concat vs ∧ Forall2 (right k data) ids vs.
Proof.
  intros Hh Hcalm Ha. destruct (exact_history _ _ _ _ Hh Hcalm) as [_ Hc]. specialize (Hc _ _ _ Ha). apply said in Hc as (vs & Hf & ->). exists vs. split; [done|].
  eapply Forall2_impl; [exact Hf|]. intros i v Hv. rewrite (Hv eq_refl). apply found_right.
Qed.
(** Then a search has the hotels near by that have rates, in the order near by. *)
Theorem C96_search es w t ids l data h : history es w → calm Rate data es → answered w t (Get Rate ids) (Got l) →
  h ∈ search l ↔ h ∈ ids ∧ ∃ x, x ∈ data ∧ x.1 = h.
Proof.
  intros Hh Hcalm Ha. destruct (C96_exact _ _ _ _ _ _ _ Hh Hcalm Ha) as (vs & -> & Hf). unfold search. clear Ha. induction Hf as [|i v ids vs Hv Hf IH]; simpl.
  - split; [intros []%elem_of_nil|intros [[]%elem_of_nil _]].
  - rewrite fmap_app, elem_of_app, IH, elem_of_cons. simpl in Hv. subst v. split.
    + intros [Hx|[? ?]]; [|by split; [right|]]. apply elem_of_list_fmap in Hx as (x & -> & Hx). apply elem_of_list_filter in Hx as [<- Hx]. split; [by left|eauto].
    + intros [[-> |Hin] (x & Hx & E)]; [left|by right; eauto]. apply elem_of_list_fmap. exists x. split; [done|]. by apply elem_of_list_filter.
Qed.

(** A call fails only if a call to its cache or database did. *)
Theorem C96_failed es w t o : history es w → answered w t o Failed → ∃ f, Step t f ∈ es ∧ f ≠ Works.
Proof.
  assert (∀ es w0 w, run w0 es w → w0 = started → answered w t o Failed → ∃ f, Step t f ∈ es ∧ f ≠ Works) as Hx; [|intros; by eapply Hx].
  clear. intros es w0 w H E. induction H as [w|w es w1 e w2 Hr IH Hs]; subst w; [unfold answered; simpl; by rewrite lookup_nil|]. intros Ha.
  assert (answered w1 t o Failed → ∃ f, Step t f ∈ es ++ [e] ∧ f ≠ Works) as Hold.
  { intros H. destruct (IH eq_refl H) as (f & ? & ?). exists f. split; [apply elem_of_app; by left|done]. }
  unfold answered in *. destruct e as [k l|o'|t' f|t'|k i]; simpl in Hs.
  - injection Hs as <-. by apply Hold.
  - injection Hs as <-. simpl in Ha. apply lookup_app_Some in Ha as [Ha|[_ Ha]]; [by apply Hold|]. apply list_lookup_singleton_Some in Ha as [_ Ha]. by destruct o' as [k [|]].
  - destruct (w_calls w1 !! t') as [[o' [p|r|]]|] eqn:Et; try done. destruct (act p f (w_db w1) (w_cache w1)) as [c p'] eqn:Ea. injection Hs as <-. simpl in Ha.
    apply list_lookup_insert_Some in Ha as [(-> & [= -> Hp] & _)|[_ Ha]]; [|by apply Hold]. exists f. split; [apply elem_of_app; right; by left|]. intros ->.
    assert (p' = Ret Failed) as -> by (destruct p'; simpl in Hp; congruence).
    destruct (from_history _ _ Hr) as [[_ Hc] _]. specialize (Hc _ _ _ Et). simpl in Hc.
    assert (p ≠ Ret Failed) as Hnf by (eapply running_history; eauto).
    destruct Hc as [?|k dn [|i ids] vs Hf|k dn i ids vs Hf|k dn i ids vs v Hf Hv]; simpl in Ea; [done|by injection Ea| | |].
    + destruct (w_cache w1 !! (k, i)); [|done]. by destruct ids.
    + done.
    + injection Ea as _ Ea. by destruct ids.
  - destruct (w_calls w1 !! t') as [[o' [p|r|]]|] eqn:Et; try done. injection Hs as <-. simpl in Ha. apply list_lookup_insert_Some in Ha as [(_ & ? & _)|[_ Ha]]; [done|by apply Hold].
  - injection Hs as <-. by apply Hold.
Qed.

(** ** What does not hold *)
Fixpoint play (es : list event) (w : world) : option world := match es with [] => Some w | e :: es => match step e w with Some w => play es w | None => None end end.
Lemma play_run es : ∀ w w', play es w = Some w' → run w es w'.
Proof.
  induction es as [|e es IH] using rev_ind; intros w w'; [intros [= <-]; constructor|].
  assert (∀ a b w, play (a ++ b) w = match play a w with Some w => play b w | None => None end) as Happ by (induction a as [|x a IHa]; simpl; [done|intros b v; by destruct (step x v)]).
  rewrite Happ. destruct (play es w) as [w1|] eqn:E; [|done]. simpl. intros H. destruct (step e w1) as [w2|] eqn:Es; [|done]. injection H as <-. eapply run_snoc; [by apply IH|done].
Qed.
Local Open Scope string_scope.
(** A result that could not be read once is taken for no rates, and is cached: later calls, for which all works, answer that the hotel has none. *)
Theorem C96_cached_failure_refuted : ∃ es w, history es w ∧ (∀ f, Step 1 f ∈ es → f = Works) ∧ inserted es Rate ("1", "109") ∧
  answered w 0 (Get Rate ["1"]) (Got []) ∧ answered w 1 (Get Rate ["1"]) (Got []).
Proof.
  exists [Load Rate [("1", "109")]; Start (Get Rate ["1"]); Step 0 Works; Step 0 Unread; Step 0 Works; Start (Get Rate ["1"]); Step 1 Works]. eexists.
  split; [apply play_run; vm_compute; reflexivity|]. split.
  - intros f H. repeat (apply elem_of_cons in H as [H|H]; [congruence|]). by apply elem_of_nil in H.
  - split; [exists [("1", "109")]; split; left|]. split; reflexivity.
Qed.
(** Each start of an instance inserts its documents again: with two, a hotel has each rate twice, and is found twice. *)
Theorem C96_two_instances_refuted : ∃ es w l, history es w ∧ Forall (λ e, match e with Step _ f => f = Works | _ => True end) es ∧
  (∀ k d, Load k d ∈ es → d = [("1", "109")]) ∧ answered w 0 (Get Rate ["1"]) (Got l) ∧ l = [("1", "109"); ("1", "109")] ∧ search l = ["1"; "1"].
Proof.
  exists [Load Rate [("1", "109")]; Load Rate [("1", "109")]; Start (Get Rate ["1"]); Step 0 Works; Step 0 Works; Step 0 Works]. eexists. exists [("1", "109"); ("1", "109")].
  split; [apply play_run; vm_compute; reflexivity|]. split; [repeat constructor|]. split; [|repeat split].
  intros k d H. repeat (apply elem_of_cons in H as [H|H]; [congruence|]). by apply elem_of_nil in H.
Qed.
(** For a hotel that is not there, the answer is an empty profile, not an error. *)
Theorem C96_unknown_refuted : ∃ es w, history es w ∧ Forall (λ e, match e with Step _ f => f = Works | _ => True end) es ∧ answered w 0 (Get Profile ["7"]) (Got [no_item]).
Proof.
  exists [Load Profile [("1", "Clift")]; Start (Get Profile ["7"]); Step 0 Works; Step 0 Works; Step 0 Works]. eexists.
  split; [apply play_run; vm_compute; reflexivity|]. split; [repeat constructor|]. reflexivity.
Qed.

(** ** The hypotheses can be met *)
(** Two calls interleave with one that fails and one that is killed; an entry is dropped. *)
Example C96_nonvacuous : let data := [("1", "109"); ("2", "139"); ("1", "99")] in let es := [Load Rate data; Load Profile [("1", "Clift"); ("2", "W")];
  Start (Get Rate ["2"; "1"; "9"]); Start (Get Profile ["2"; "1"]); Start (Get Rate ["1"]); Start (Get Rate ["2"]);
  Step 0 Works; Step 1 Works; Step 0 Works; Step 1 Works; Step 0 Refuses; Step 1 Works; Step 1 Works; Step 1 Works; Step 1 Loses;
  Step 2 Works; Step 2 Works; Step 2 Works; Step 3 Works; Step 3 Loses; Evict Profile "1"; Step 0 Works; Step 0 Works; Step 0 Works; Step 0 Works;
  Start (Get Profile ["1"]); Step 4 Works; Kill 4] in
  ∃ w, history es w ∧ calm Rate data es ∧ answered w 0 (Get Rate ["2"; "1"; "9"]) (Got [("2", "139"); ("1", "109"); ("1", "99")]) ∧
  answered w 1 (Get Profile ["2"; "1"]) (Got [("2", "W"); ("1", "Clift")]) ∧ answered w 2 (Get Rate ["1"]) (Got [("1", "109"); ("1", "99")]) ∧ answered w 3 (Get Rate ["2"]) Failed.
Proof.
  intros data es. eexists. split; [apply play_run; vm_compute; reflexivity|]. split; [eexists; split; [reflexivity|]; repeat constructor; done|]. repeat split.
Qed.

Print Assumptions C96_sound.
Print Assumptions C96_exact.
Print Assumptions C96_search.
Print Assumptions C96_failed.
Print Assumptions C96_cached_failure_refuted.
Print Assumptions C96_two_instances_refuted.
Print Assumptions C96_unknown_refuted.
Print Assumptions C96_nonvacuous.
