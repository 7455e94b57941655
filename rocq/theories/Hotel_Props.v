(** * C82: the reservation service of the hotel example *)
From Verif Require Import Hotel_Proof.
From stdpp Require Import list.
Open Scope Z_scope.

(** ** Never overbooked *)

(** Calls about the same hotel do not overlap, are sensible, and either the cache loses nothing or every stay is for
    at most one night.  Cache and database calls may fail, also with the answer lost, calls about other hotels may
    interleave in any way, and the service may be killed and started again.  Then no hotel ever has more rooms
    reserved for a night than it has. *)
Theorem C82_never_overbooked parse init_docs init_nums es w h n :
  Forall (λ d, 0 ≤ d_rooms d) init_docs →
  (∀ h n, rooms_of init_docs h n ≤ capacity init_docs init_nums h) →
  history parse init_docs init_nums Z.add (λ w e, exclusive w e ∧ sensible parse e) es w →
  Forall keeps_cache es ∨ Forall (one_night parse) es →
  booked parse init_docs w h n ≤ capacity init_docs init_nums h.
Proof.
  intros Hn Hc Hh Hk.
  assert (∀ ev, (ev = true → Forall (one_night parse) es) → (ev = false → Forall keeps_cache es) → inv parse init_docs init_nums ev w) as H.
  { clear Hk. intros ev. induction Hh as [|es e w w' Hh IH [He Hs] Hst]; intros H1 H2; [by apply inv_started|].
    eapply inv_step; [done| |done|done| | |done].
    - apply IH; intros E; [specialize (H1 E); by apply Forall_app in H1 as [? _]|specialize (H2 E); by apply Forall_app in H2 as [? _]].
    - intros E. specialize (H1 E). apply Forall_app in H1 as [_ H1]. by apply Forall_cons in H1 as [? _].
    - intros E. specialize (H2 E). apply Forall_app in H2 as [_ H2]. by apply Forall_cons in H2 as [? _]. }
  destruct Hk as [Hk|Hk].
  - by apply (i_bound _ _ _ _ _ (H false ltac:(done) ltac:(done))).
  - by apply (i_bound _ _ _ _ _ (H true ltac:(done) ltac:(done))).
Qed.

(** ** One call at a time *)

(** Calls made one after the other, with nothing failing and the cache losing nothing, are answered as they should be:
    MakeReservation with the hotel exactly if every night of the stay has enough rooms left, CheckAvailability with
    the hotels where it would, in the order given. *)
Theorem C82_one_at_a_time parse init_docs init_nums cs :
  Forall (dated parse) cs →
  (run_calls parse Z.add init_docs init_nums cs).1 = (ideals parse init_docs init_nums cs (rooms_of init_docs)).1.
Proof. apply run_calls_ideals. Qed.
(** A call on its own in any state of the service is answered, and runs as it does in [C82_one_at_a_time]. *)
Theorem C82_answered parse add init_docs init_nums w c : ∃ k,
  run_world parse init_docs init_nums add (Start c :: replicate k (Step (length (w_calls w)) Fine)) w =
  Some (World (run_prog (program parse add c) (w_cache w, w_docs w) (w_nums w)).2.1
              (run_prog (program parse add c) (w_cache w, w_docs w) (w_nums w)).2.2 (w_nums w)
              (w_calls w ++ [(c, Done (run_prog (program parse add c) (w_cache w, w_docs w) (w_nums w)).1)])).
Proof. apply run_alone. Qed.

(** ** Examples *)

(** Days d0 to d9; hotel A has 2 rooms, one of them reserved for night d4. *)
Definition P0 (s : string) : option Z :=
  match s with
  | "d0" => Some 0 | "d1" => Some 1 | "d2" => Some 2 | "d3" => Some 3 | "d4" => Some 4
  | "d5" => Some 5 | "d6" => Some 6 | "d7" => Some 7 | "d8" => Some 8 | "d9" => Some 9
  | _ => None
  end%string.
Definition D0 : list doc := [Doc "A" "Alice" 4 5 1].
Definition N0 : list (string * Z) := [("A", 2); ("B", 3)].
Definition mk (h from to : string) (rooms : Z) : call := Call true "Bob" [h] from to rooms id.
Definition ck (hs : list string) (from to : string) (rooms : Z) : call := Call false "" hs from to rooms (@rev _).
Definition steps (t k : nat) : list event := replicate k (Step t Fine).
Definition any (w : world) (e : event) : Prop := True.
Definition good (w : world) (e : event) : Prop := exclusive w e ∧ sensible P0 e.

Lemma history_all (Q : event → Prop) es w :
  Forall Q es → run_world P0 D0 N0 Z.add es (started D0 N0) = Some w → history P0 D0 N0 Z.add (λ _ e, Q e) es w.
Proof.
  change (Forall Q es → run_world P0 D0 N0 Z.add es (started D0 N0) = Some w → history P0 D0 N0 Z.add (λ _ e, Q e) ([] ++ es) w).
  generalize (h_nil P0 D0 N0 Z.add (λ _ e, Q e)). generalize (started D0 N0) as w0. generalize ([] : list event) as es0.
  induction es as [|e es IH]; intros es0 w0 H0 Hs Hr; simpl in Hr.
  - injection Hr as <-. by rewrite app_nil_r.
  - destruct (step P0 Z.add D0 N0 e w0) as [w1|] eqn:Es; [|done]. apply Forall_cons in Hs as [Hs1 Hs2].
    replace (es0 ++ e :: es) with ((es0 ++ [e]) ++ es) by by rewrite <-app_assoc.
    apply (IH _ w1); [|done|done]. by apply (h_snoc _ _ _ _ _ _ _ w0).
Qed.

Lemma run_some {B} (f : world → B) (o : option world) x : f <$> o = Some x → ∃ w, o = Some w ∧ f w = x.
Proof. destruct o as [w|]; [|done]. intros [= <-]. by exists w. Qed.
Example C82_init_ok : Forall (λ d, 0 ≤ d_rooms d) D0 ∧ ∀ h n, rooms_of D0 h n ≤ capacity D0 N0 h.
Proof.
  split; [by repeat constructor|]. intros h n. transitivity (if decide (h = "A") then 1 else 0).
  - unfold D0. rewrite rooms_one. simpl. destruct (decide (_ ∧ _)) as [[<- _]|_]; [done|]. destruct (decide _); lia.
  - destruct (decide (h = "A")) as [->|HA]; [by vm_compute|]. unfold capacity, number, N0. cbn [started w_nums].
    rewrite filter_cons, decide_False by (simpl; congruence). rewrite filter_cons. destruct (decide _); [done|]. done.
Qed.
Example C82_alone_ex :
  (run_calls P0 Z.add D0 N0
     [mk "A" "d3" "d6" 1; ck ["B"; "A"; "C"] "d5" "d7" 1; ck ["B"; "A"; "C"] "d4" "d7" 1; mk "A" "d4" "d5" 1; mk "A" "d5" "d6" 1; mk "C" "d1" "d2" 1]).1 =
  [Hotels ["A"]; Hotels ["B"; "A"]; Hotels ["B"]; Hotels []; Hotels ["A"]; Hotels []].
Proof. by vm_compute. Qed.
(** Two calls about different hotels interleaved, a failure and a restart: the hypotheses of [C82_never_overbooked]
    are met, and rooms get reserved. *)
Definition exclb (w : world) (e : event) : bool :=
  match e with
  | Start c => forallb (λ x, match x.2 with Running _ => forallb (λ h, bool_decide (h ∉ uses x.1)) (uses c) | _ => true end) (w_calls w)
  | _ => true
  end.
Fixpoint run_excl (es : list event) (w : world) : option world :=
  match es with
  | [] => Some w
  | e :: es => if exclb w e then match step P0 Z.add D0 N0 e w with Some w => run_excl es w | None => None end else None
  end.
Lemma exclb_ok w e : exclb w e = true → exclusive w e.
Proof.
  destruct e as [c| | |]; try done. simpl. rewrite forallb_forall. intros H c' s Hin Hr h H1 H2.
  apply elem_of_list_In, H in Hin. destruct s as [p| |]; try done. simpl in Hin. rewrite forallb_forall in Hin.
  apply elem_of_list_In, Hin in H1. by apply bool_decide_eq_true in H1.
Qed.
Lemma history_excl es w :
  Forall (sensible P0) es → run_excl es (started D0 N0) = Some w → history P0 D0 N0 Z.add good es w.
Proof.
  change (Forall (sensible P0) es → run_excl es (started D0 N0) = Some w → history P0 D0 N0 Z.add good ([] ++ es) w).
  generalize (h_nil P0 D0 N0 Z.add good). generalize (started D0 N0) as w0. generalize ([] : list event) as es0.
  induction es as [|e es IH]; intros es0 w0 H0 Hs Hr; simpl in Hr.
  - injection Hr as <-. by rewrite app_nil_r.
  - destruct (exclb w0 e) eqn:Ex; [|done]. destruct (step P0 Z.add D0 N0 e w0) as [w1|] eqn:Es; [|done].
    apply Forall_cons in Hs as [Hs1 Hs2].
    replace (es0 ++ e :: es) with ((es0 ++ [e]) ++ es) by by rewrite <-app_assoc.
    apply (IH _ w1); [|done|done]. apply (h_snoc _ _ _ _ _ _ _ w0); [done|split; [by apply exclb_ok|done]|done].
Qed.
Example C82_history_ex : ∃ es w, history P0 D0 N0 Z.add good es w ∧ Forall keeps_cache es ∧
  booked P0 D0 w "A" 4 = 2 ∧ booked P0 D0 w "B" 5 = 3 ∧ length (w_calls w) = 4%nat.
Proof.
  set (es := [Start (mk "A" "d4" "d5" 1); Start (mk "B" "d5" "d6" 3)] ++
    [Step 0 Fine; Step 1 Fine; Step 1 Fine; Step 0 Fine; Step 0 Fine; Step 0 Fine; Step 0 Fine; Step 1 Fine; Step 1 Fine; Step 1 Fine;
     Step 0 Fine; Step 0 Fine; Step 1 Fine; Step 1 Fine] ++
    [Start (mk "A" "d4" "d5" 1); Step 2 Refused; Start (mk "A" "d6" "d7" 1); Step 3 Fine; Restart]).
  destruct (run_some (λ w, (booked P0 D0 w "A" 4, booked P0 D0 w "B" 5, length (w_calls w))) (run_excl es (started D0 N0)) (2, 3, 4%nat))
    as (w&Hw&Hb); [by vm_compute|].
  exists es, w. split; [apply history_excl; [clear w Hw Hb|exact Hw]|clear Hw; injection Hb as -> -> ->; split; [clear w; unfold es; by repeat constructor|done]].
  repeat (apply Forall_cons; split; [first [done|split; [intros _; split_and!; [by eexists|by eexists|done]|intros l; first [done|symmetry; apply Permutation_rev]]]|]). constructor.
Qed.

(** ** What does not hold *)

(** Two calls at the same time: the second one reads before the first one writes, and both get the last room. *)
Theorem C82_concurrent_refuted : ∃ es w,
  history P0 D0 N0 Z.add (λ _ e, sensible P0 e) es w ∧ Forall keeps_cache es ∧
  capacity D0 N0 "A" = 2 ∧ booked P0 D0 w "A" 4 = 3.
Proof.
  set (es := [Start (mk "A" "d4" "d5" 1); Start (mk "A" "d4" "d5" 1)] ++ steps 0 2 ++ steps 1 2 ++ steps 0 5 ++ steps 1 3).
  destruct (run_some (λ w, booked P0 D0 w "A" 4) (run_world P0 D0 N0 Z.add es (started D0 N0)) 3) as (w&Hw&Hb); [by vm_compute|].
  exists es, w. split; [apply history_all; [clear w Hw Hb|exact Hw]|clear Hw; split; [clear w Hb; unfold es; by repeat constructor|done]].
  repeat (apply Forall_cons; split; [first [done|split; [intros _; split_and!; [by eexists|by eexists|done]|intros l; first [done|symmetry; apply Permutation_rev]]]|]). constructor.
Qed.
(** CheckAvailability at the same time as MakeReservation: it puts what it read before into the cache, and the
    reservation is forgotten. *)
Theorem C82_check_refuted : ∃ es w,
  history P0 D0 N0 Z.add (λ _ e, sensible P0 e) es w ∧ Forall keeps_cache es ∧ Forall (one_night P0) es ∧
  capacity D0 N0 "A" = 2 ∧ booked P0 D0 w "A" 4 = 3.
Proof.
  set (es := [Start (ck ["A"] "d4" "d5" 1)] ++ steps 0 2 ++ [Start (mk "A" "d4" "d5" 1)] ++ steps 1 7 ++ steps 0 2 ++
             [Start (mk "A" "d4" "d5" 1)] ++ steps 2 4).
  destruct (run_some (λ w, booked P0 D0 w "A" 4) (run_world P0 D0 N0 Z.add es (started D0 N0)) 3) as (w&Hw&Hb); [by vm_compute|].
  exists es, w. split; [apply history_all; [clear w Hw Hb|exact Hw]|clear Hw; split; [clear w Hb; unfold es; by repeat constructor|split; [clear w Hb; unfold es; by repeat constructor|done]]].
  repeat (apply Forall_cons; split; [first [done|split; [intros _; split_and!; [by eexists|by eexists|done]|intros l; first [done|symmetry; apply Permutation_rev]]]|]). constructor.
Qed.
(** The cache loses entries, as caches do: the second night of a stay is stored with the first day, and is not found
    again. *)
Theorem C82_evicted_refuted : ∃ es w, history P0 D0 N0 Z.add good es w ∧
  capacity D0 N0 "A" = 2 ∧ booked P0 D0 w "A" 2 = 4.
Proof.
  set (es := [Start (mk "A" "d1" "d3" 2)] ++ steps 0 12 ++ [Evict (KNight "A" 3)] ++ [Start (mk "A" "d2" "d3" 2)] ++ steps 1 5).
  destruct (run_some (λ w, booked P0 D0 w "A" 2) (run_excl es (started D0 N0)) 4) as (w&Hw&Hb); [by vm_compute|].
  exists es, w. split; [apply history_excl; [clear w Hw Hb|exact Hw]|clear Hw; done].
  repeat (apply Forall_cons; split; [first [done|split; [intros _; split_and!; [by eexists|by eexists|done]|intros l; first [done|symmetry; apply Permutation_rev]]]|]). constructor.
Qed.
(** A negative number of rooms is accepted, and makes room that does not exist. *)
Theorem C82_negative_refuted :
  (run_calls P0 Z.add D0 N0 [mk "A" "d1" "d2" (-5); mk "A" "d1" "d2" 7]).1 = [Hotels ["A"]; Hotels ["A"]] ∧ capacity D0 N0 "A" = 2.
Proof. by vm_compute. Qed.
(** A number of rooms so large that the addition overflows is accepted. *)
Definition int64_add (x y : Z) : Z := (x + y + 2 ^ 63) `mod` 2 ^ 64 - 2 ^ 63.
Theorem C82_overflow_refuted :
  (run_calls P0 int64_add D0 N0 [mk "A" "d4" "d5" (2 ^ 63 - 1)]).1 = [Hotels ["A"]] ∧ capacity D0 N0 "A" = 2.
Proof. by vm_compute. Qed.
(** A stay that ends when it begins or before succeeds with nothing reserved, even in a hotel that does not exist, while
    CheckAvailability says there is no room. *)
Theorem C82_no_nights_refuted h ds ns :
  run_calls P0 Z.add ds ns [mk h "d5" "d3" 1; ck [h] "d5" "d3" 1] = ([Hotels [h]; Hotels []], (∅, ds)).
Proof. done. Qed.
(** A date that is none is taken for the first day of the year 1: all nights since are reserved, and the night after the
    end of the stay too. *)
Theorem C82_bad_date_refuted :
  P0 "d?" = None ∧ ∃ s, run_calls P0 Z.add D0 N0 [mk "B" "d?" "d3" 3] = ([Hotels ["B"]], s) ∧
  (λ n, s.1 !! KNight "B" (n + 1)) <$> [0; 1; 2; 3; 4] = [Some 3; Some 3; Some 3; Some 3; None].
Proof.
  split; [done|]. exists (run_calls P0 Z.add D0 N0 [mk "B" "d?" "d3" 3]).2. split; [|by vm_compute].
  destruct (run_calls P0 Z.add D0 N0 [mk "B" "d?" "d3" 3]) as [r s] eqn:E. f_equal.
  change r with (r, s).1. rewrite <-E. by vm_compute.
Qed.
(** An ignored error of the cursor counts as no reservations. *)
Theorem C82_ignored_error_refuted : ∃ es w,
  history P0 D0 N0 Z.add exclusive es w ∧ Forall keeps_cache es ∧ capacity D0 N0 "A" = 2 ∧ booked P0 D0 w "A" 4 = 3.
Proof.
  set (es := [Start (mk "A" "d4" "d5" 2); Step 0 Fine; Step 0 Cut] ++ steps 0 5).
  destruct (run_some (λ w, booked P0 D0 w "A" 4) (run_excl es (started D0 N0)) 3) as (w&Hw&Hb); [by vm_compute|].
  exists es, w. split; [|clear Hw; split; [clear w Hb; unfold es; by repeat constructor|done]]. 
  assert (∀ es0 w0 es, history P0 D0 N0 Z.add exclusive es0 w0 → run_excl es w0 = Some w → history P0 D0 N0 Z.add exclusive (es0 ++ es) w) as H.
  { clear. intros es0 w0 es. revert es0 w0. induction es as [|e es IH]; intros es0 w0 H0 Hr; simpl in Hr.
    - injection Hr as <-. by rewrite app_nil_r.
    - destruct (exclb w0 e) eqn:Ex; [|done]. destruct (step P0 Z.add D0 N0 e w0) as [w1|] eqn:Es; [|done].
      replace (es0 ++ e :: es) with ((es0 ++ [e]) ++ es) by by rewrite <-app_assoc.
      apply (IH _ w1); [|done]. apply (h_snoc _ _ _ _ _ _ _ w0); [done|by apply exclb_ok|done]. }
  apply (H [] (started D0 N0) es); [constructor|exact Hw].
Qed.
(** A call that fails may have reserved all the same: the rooms are not available any more. *)
Theorem C82_failed_refuted : ∃ es w,
  history P0 D0 N0 Z.add good es w ∧ Forall keeps_cache es ∧
  (λ x, match x.2 with Done r => Some r | _ => None end) <$> w_calls w = [Some Failed; Some (Hotels [])] ∧
  booked P0 D0 w "B" 1 = 0 ∧ capacity D0 N0 "B" = 3.
Proof.
  set (es := [Start (mk "B" "d1" "d2" 3)] ++ steps 0 6 ++ [Step 0 Lost; Start (mk "B" "d1" "d2" 1)] ++ steps 1 2).
  destruct (run_some (λ w, ((λ x, match x.2 with Done r => Some r | _ => None end) <$> w_calls w, booked P0 D0 w "B" 1))
    (run_excl es (started D0 N0)) ([Some Failed; Some (Hotels [])], 0)) as (w&Hw&Hb); [by vm_compute|].
  exists es, w. split; [apply history_excl; [clear w Hw Hb|exact Hw]|clear Hw; split; [clear w Hb; unfold es; by repeat constructor|]].
  - repeat (apply Forall_cons; split; [first [done|split; [intros _; split_and!; [by eexists|by eexists|done]|intros l; first [done|symmetry; apply Permutation_rev]]]|]). constructor.
  - pose proof (f_equal fst Hb) as H1. pose proof (f_equal snd Hb) as H2. simpl in H1, H2. rewrite H1, H2. done.
Qed.
(** Every start of the service stores the first reservations again; once the cache has lost the night they count
    again, and the hotel looks full. *)
Theorem C82_restart_refuted : ∃ es w,
  history P0 D0 N0 Z.add good es w ∧ Forall (one_night P0) es ∧
  (λ x, match x.2 with Done r => Some r | _ => None end) <$> w_calls w = [Some (Hotels [])] ∧
  booked P0 D0 w "A" 4 = 1 ∧ capacity D0 N0 "A" = 2.
Proof.
  set (es := [Restart; Start (mk "A" "d4" "d5" 1)] ++ steps 0 5).
  destruct (run_some (λ w, ((λ x, match x.2 with Done r => Some r | _ => None end) <$> w_calls w, booked P0 D0 w "A" 4))
    (run_excl es (started D0 N0)) ([Some (Hotels [])], 1)) as (w&Hw&Hb); [by vm_compute|].
  exists es, w. split; [apply history_excl; [clear w Hw Hb|exact Hw]|clear Hw; split; [clear w Hb; unfold es; by repeat constructor|]].
  - repeat (apply Forall_cons; split; [first [done|split; [intros _; split_and!; [by eexists|by eexists|done]|intros l; first [done|symmetry; apply Permutation_rev]]]|]). constructor.
  - pose proof (f_equal fst Hb) as H1. pose proof (f_equal snd Hb) as H2. simpl in H1, H2. rewrite H1, H2. done.
Qed.

Print Assumptions C82_never_overbooked.
Print Assumptions C82_one_at_a_time.
Print Assumptions C82_answered.
Print Assumptions C82_concurrent_refuted.
Print Assumptions C82_check_refuted.
Print Assumptions C82_evicted_refuted.
Print Assumptions C82_negative_refuted.
Print Assumptions C82_overflow_refuted.
Print Assumptions C82_no_nights_refuted.
Print Assumptions C82_bad_date_refuted.
Print Assumptions C82_ignored_error_refuted.
Print Assumptions C82_failed_refuted.
Print Assumptions C82_restart_refuted.
