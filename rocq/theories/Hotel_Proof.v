From Verif Require Export Hotel_Spec.
From stdpp Require Export list.
Set Default Proof Using "Type".
Open Scope Z_scope.

(** ** Sums *)
Lemma zsum_cons x l : zsum (x :: l) = x + zsum l.
Proof. done. Qed.
Lemma zsum_app l1 l2 : zsum (l1 ++ l2) = zsum l1 + zsum l2.
Proof. induction l1 as [|x l IH]; simpl; lia. Qed.
Lemma total_zsum l : sum_rooms Z.add l = zsum l.
Proof.
  unfold sum_rooms. assert (∀ a, foldl Z.add a l = a + zsum l) as ->; [|lia].
  induction l as [|x l IH]; intros a; simpl; [lia|]. rewrite IH. lia.
Qed.
Lemma zsum_insert {A} (f : A → Z) l i x y :
  l !! i = Some x → zsum (f <$> <[i := y]> l) = zsum (f <$> l) - f x + f y.
Proof.
  revert i. induction l as [|z l IH]; intros [|i] Hi; [done..|simplify_eq/=; lia|].
  simpl in Hi. simpl insert. rewrite !fmap_cons, !zsum_cons, (IH i Hi). lia.
Qed.
Lemma zsum_ext {A} (f g : A → Z) l : (∀ x, x ∈ l → f x = g x) → zsum (f <$> l) = zsum (g <$> l).
Proof.
  induction l as [|x l IH]; intros H; [done|]. rewrite !fmap_cons, !zsum_cons. rewrite IH by (intros; apply H; by right).
  rewrite (H x) by by left. done.
Qed.

Lemma found_rooms w h n : zsum (found w h n (n + 1)) = rooms_of (w_docs w) h n.
Proof.
  unfold found, rooms_of. induction (w_docs w) as [|d l IH]; [done|]. rewrite filter_cons, fmap_cons, zsum_cons, <-IH.
  destruct (decide _); [by rewrite fmap_cons, zsum_cons|done].
Qed.
Lemma rooms_app l1 l2 h n : rooms_of (l1 ++ l2) h n = rooms_of l1 h n + rooms_of l2 h n.
Proof. unfold rooms_of. by rewrite fmap_app, zsum_app. Qed.
Lemma rooms_nonneg l h n : Forall (λ d, 0 ≤ d_rooms d) l → 0 ≤ rooms_of l h n.
Proof.
  unfold rooms_of. induction 1 as [|d l Hd Hl IH]; [done|]. rewrite fmap_cons, zsum_cons. destruct (decide _); lia.
Qed.
Lemma rooms_one d h n : rooms_of [d] h n = if decide (d_hotel d = h ∧ d_in d = n ∧ d_out d = n + 1) then d_rooms d else 0.
Proof. unfold rooms_of. simpl. lia. Qed.

(** ** Dates *)
Lemma days_dated a b : days (2 * a + 1) (2 * b + 1) = seqZ a (b - a).
Proof.
  unfold days, seqZ. rewrite Z.mul_comm, Z.div_add_l by lia. replace (1 `div` 2) with 0 by done. rewrite Z.add_0_r.
  replace ((2 * b + 1 - (a * 2 + 1) + 1) `div` 2) with (b - a).
  - apply list_fmap_ext. intros i x Hx. lia.
  - replace (2 * b + 1 - (a * 2 + 1) + 1) with ((b - a) * 2 + 1) by lia. rewrite Z.div_add_l by lia.
    replace (1 `div` 2) with 0 by done. lia.
Qed.
Lemma first_day a : (2 * a + 1) `div` 2 = a.
Proof. rewrite Z.mul_comm, Z.div_add_l by lia. by rewrite Z.add_0_r. Qed.

Section proof.
Context (parse : string → option Z) (init_docs : list doc) (init_nums : list (string * Z)) (ev : bool).
Notation stay := (stay parse).
Notation cap := (capacity init_docs init_nums).

Lemma days_stay c : is_Some (parse (c_from c)) → is_Some (parse (c_to c)) →
  days (clock parse (c_from c)) (clock parse (c_to c)) = stay c.
Proof. intros [a Ha] [b Hb]. unfold clock, stay. rewrite Ha, Hb. apply days_dated. Qed.

(** ** Safe programs *)

(** What must hold when the call ends, given what was booked before it ([A]), what it put into the cache and what it
    inserted. *)
Definition ends (c : call) (A : string → Z → Z) (puts : gmap ckey Z) (ins : list doc) (r : reply) : Prop :=
  ∀ h n, reserves parse c (Done r) h n →
    h ∈ uses c ∧ A h n + c_rooms c ≤ cap h ∧
    (∃ v, puts !! KNight h (n + 1) = Some v ∧ A h n + c_rooms c ≤ v) ∧
    (ev = true → c_rooms c ≤ rooms_of ins h n).
Fixpoint safe (c : call) (A : string → Z → Z) (ms : list (string * Z)) (puts : gmap ckey Z) (ins : list doc) (p : prog) : Prop :=
  match p with
  | Ret r => ends c A puts ins r
  | CGet k g =>
      match k with
      | KNight h m => h ∈ uses c ∧ (∀ v, A h (m - 1) ≤ v → safe c A ms puts ins (g (Some v))) ∧
                      safe c A ((h, m - 1) :: ms) puts ins (g None)
      | KCap h => safe c A ms puts ins (g (Some (cap h))) ∧ safe c A ms puts ins (g None)
      end
  | CPut k v p =>
      match k with
      | KNight h m => h ∈ uses c ∧ A h (m - 1) ≤ v ∧ safe c A ms (<[k := v]> puts) ins p
      | KCap h => v = cap h ∧ safe c A ms puts ins p
      end
  | Find h i o g => (h, i) ∈ ms ∧ o = i + 1 ∧ ∀ l, A h i ≤ zsum l → safe c A ms puts ins (g l)
  | FindNum h g => safe c A ms puts ins (g (number (started init_docs init_nums) h))
  | Store d p => d_hotel d ∈ uses c ∧ 0 ≤ d_rooms d ∧ safe c A ms puts (ins ++ [d]) p
  end.

Lemma safe_capacity c A ms puts ins h k :
  safe c A ms puts ins (k (cap h)) → safe c A ms puts ins (with_capacity h k).
Proof. intros H. simpl. split; [done|]. by split. Qed.

Lemma safe_put_all c A ms ins l r :
  c_make c = true →
  ∀ puts, (∀ k v, (k, v) ∈ l → ∃ h m, k = KNight h m ∧ h ∈ uses c ∧ A h (m - 1) ≤ v) → NoDup l.*1 →
  (∀ puts', (∀ k v, (k, v) ∈ l → puts' !! k = Some v) → (∀ k v, k ∉ l.*1 → puts !! k = Some v → puts' !! k = Some v) → ends c A puts' ins r) →
  safe c A ms puts ins (put_all l (Ret r)).
Proof.
  intros Hm. induction l as [|[k v] l IH]; intros puts Hl Hd He; simpl.
  - apply He; [set_solver|done].
  - destruct (Hl k v) as (h&m&->&Hu&Ha); [by left|]. split_and!; [done|done|].
    apply NoDup_cons in Hd as [Hk Hd]. simpl in Hk. apply IH; [|done|].
    { intros k' v' Hk'. apply Hl. by right. }
    intros puts' H1 H2. apply He.
    + intros k' v' [[= -> ->]|Hk']%elem_of_cons; [|by apply H1]. apply H2; [done|]. by rewrite lookup_insert.
    + intros k' v' Hk' Hp. simpl in Hk'. apply not_elem_of_cons in Hk' as [Hk1 Hk2]. apply H2; [done|]. by rewrite lookup_insert_ne.
Qed.

Lemma safe_insert_all c A ms h cust day rooms ns p :
  h ∈ uses c → 0 ≤ rooms →
  ∀ puts ins, safe c A ms puts (ins ++ ((λ n, Doc h cust day (n + 1) rooms) <$> ns)) p →
  safe c A ms puts ins (insert_all h cust day rooms ns p).
Proof.
  intros Hu Hr. induction ns as [|n ns IH]; intros puts ins Hp; simpl; [by rewrite app_nil_r in Hp|].
  split_and!; [done|done|]. apply IH. by rewrite <-app_assoc.
Qed.

Lemma safe_check_nights c A h rooms ns p :
  h ∈ uses c →
  ∀ ms upd,
  (∀ ms' vs, length vs = length ns → (∀ i n v, ns !! i = Some n → vs !! i = Some v → A h n ≤ v ∧ v + rooms ≤ cap h) →
    safe c A ms' ∅ [] (p (upd ++ zip_with (λ n v, (KNight h (n + 1), v + rooms)) ns vs))) →
  safe c A ms ∅ [] (check_nights Z.add h rooms ns upd p).
Proof.
  intros Hu. induction ns as [|n ns IH]; intros ms upd Hp.
  { specialize (Hp ms [] eq_refl). simpl in *. rewrite app_nil_r in Hp. apply Hp. by intros [] ??. }
  assert (∀ ms v, A h n ≤ v → safe c A ms ∅ []
    (with_capacity h (λ cap, if cap <? v + rooms then Ret (Hotels [])
        else check_nights Z.add h rooms ns (upd ++ [(KNight h (n + 1), v + rooms)]) p))) as Ha.
  { intros ms' v Hv. apply safe_capacity. destruct (Z.ltb_spec (cap h) (v + rooms)).
    - intros h' n' (_&_&[]).
    - apply IH. intros ms'' vs Hl Hvs. specialize (Hp ms'' (v :: vs)). simpl in Hp. rewrite <-app_assoc. apply Hp; [by f_equal|].
      intros [|i] n' v' Hn Hv'; simplify_eq/=; [split; [done|lia]|]. by eapply Hvs. }
  cbn [check_nights safe]. split; [done|split].
  - intros v Hv. apply Ha. by replace (n + 1 - 1) with n in Hv by lia.
  - replace (n + 1 - 1) with n by lia. split; [by left|split; [done|]]. intros l Hl. rewrite total_zsum. by apply Ha.
Qed.

Lemma zip_keys h rooms ns vs : length vs = length ns →
  (zip_with (λ n v, (KNight h (n + 1), v + rooms)) ns vs).*1 = (λ n, KNight h (n + 1)) <$> ns.
Proof. revert vs. induction ns as [|n ns IH]; intros [|v vs] Hl; simplify_eq/=; [done|]. by rewrite IH. Qed.

Lemma safe_make c A ms :
  c_make c = true → is_Some (parse (c_from c)) → is_Some (parse (c_to c)) → 0 ≤ c_rooms c → (∀ l, c_order c l ≡ₚ l) →
  (ev = true → (length (stay c) ≤ 1)%nat) →
  safe c A ms ∅ [] (make parse Z.add c).
Proof.
  intros Hm Hf Ht Hr Ho He. unfold make. destruct (c_hotels c) as [|h hs] eqn:Eh; [intros h n (_&_&[])|].
  rewrite days_stay by done.
  assert (h ∈ uses c) as Hu by (unfold uses; rewrite Hm, Eh; by left).
  apply safe_check_nights; [done|].
  intros ms' vs Hl Hvs. simpl. apply safe_insert_all; [done|done|]. simpl.
  set (l := zip_with _ _ _). pose proof (Ho l) as Hp.
  assert (l.*1 = (λ n, KNight h (n + 1)) <$> stay c) as Hk by by apply zip_keys.
  assert (∀ n, n ∈ stay c → ∃ v, (KNight h (n + 1), v + c_rooms c) ∈ l ∧ A h n ≤ v ∧ v + c_rooms c ≤ cap h) as Hin.
  { intros n [i Hi]%elem_of_list_lookup. destruct (lookup_lt_is_Some_2 vs i) as [v Hv].
    { rewrite Hl. by eapply lookup_lt_Some. }
    exists v. split; [|by eapply Hvs]. apply elem_of_list_lookup. exists i. unfold l. rewrite lookup_zip_with, Hi. simpl. by rewrite Hv. }
  apply safe_put_all; [done| | |].
  - intros k v Hkv. rewrite Hp in Hkv. apply elem_of_lookup_zip_with in Hkv as (i&n&v'&[= -> ->]&Hn&Hv).
    exists h, (n + 1). split_and!; [done|done|]. replace (n + 1 - 1) with n by lia. destruct (Hvs i n v' Hn Hv). lia.
  - rewrite Hp, Hk. apply NoDup_fmap_2; [intros x y [=]; lia|].
    unfold stay, Hotel_Spec.stay. destruct Hf as [a ->], Ht as [b ->]. apply NoDup_seqZ.
  - intros puts' H1 _ h' n (_&Hn&Hh). simpl in Hh. subst h'. destruct (Hin n Hn) as (v&Hv&Hav&Hc). split_and!.
    + done.
    + lia.
    + exists (v + c_rooms c). split; [|lia]. apply H1. by rewrite Hp.
    + intros Hev. specialize (He Hev). unfold stay, Hotel_Spec.stay, clock in *. destruct Hf as [a Ha], Ht as [b Hb].
      rewrite Ha, Hb in *. rewrite first_day. apply elem_of_seqZ in Hn. rewrite seqZ_length in He.
      assert (b - a = 1) as -> by lia. assert (n = a) as -> by lia. simpl.
      rewrite rooms_one. simpl. rewrite decide_True; [lia|]. split_and!; [done|done|lia].
Qed.

Lemma safe_check_hotel c A h rooms last ns p :
  h ∈ uses c →
  (∀ ms puts b, safe c A ms puts [] (p b)) →
  ∀ ms puts, safe c A ms puts [] (check_hotel Z.add h rooms last ns p).
Proof.
  intros Hu Hp. induction ns as [|n ns IH]; intros ms puts; [apply Hp|].
  assert (∀ ms puts v, safe c A ms puts []
    (with_capacity h (λ cap, if cap <? v + rooms then p false
        else match ns with [] => p last | _ => check_hotel Z.add h rooms last ns p end))) as Ha.
  { intros ms' puts' v. apply safe_capacity. destruct (cap h <? v + rooms); [apply Hp|].
    destruct ns; [apply Hp|]. apply IH. }
  cbn [check_hotel safe]. split; [done|split].
  - intros v Hv. apply Ha.
  - replace (n + 1 - 1) with n by lia. split; [by left|split; [done|]]. intros l Hl. rewrite total_zsum. split; [done|split; [done|]]. apply Ha.
Qed.
Lemma safe_check_hotels c A rooms last ns :
  c_make c = false →
  ∀ hs acc ms puts, (∀ h, h ∈ hs → h ∈ uses c) → safe c A ms puts [] (check_hotels Z.add rooms last ns hs acc).
Proof.
  intros Hm. induction hs as [|h hs IH]; intros acc ms puts Hu; [intros ?? (?&_); congruence|].
  simpl. apply safe_check_hotel; [apply Hu; by left|]. intros ms' puts' b. apply IH. intros h' Hh. apply Hu. by right.
Qed.
Lemma safe_program c A ms :
  sensible parse (Start c) → (ev = true → one_night parse (Start c)) → safe c A ms ∅ [] (program parse Z.add c).
Proof.
  intros [H1 H2] H3. unfold program. destruct (c_make c) eqn:Em.
  - destruct (H1 eq_refl) as (?&?&?). apply safe_make; try done. intros He. by apply (H3 He).
  - apply safe_check_hotels; [done|]. unfold uses. by rewrite Em.
Qed.

Lemma safe_ext c A A' ms puts ins p :
  safe c A ms puts ins p → (∀ h n, h ∈ uses c → A h n = A' h n) → (∀ x, x ∈ ms → x.1 ∈ uses c) → safe c A' ms puts ins p.
Proof.
  intros Hs HA. revert ms puts ins Hs.
  induction p as [r|k g IH|k v p IH|h i o g IH|h g IH|d p IH]; intros ms puts ins Hs Hm; simpl in *.
  - intros h n Hr. destruct (Hs h n Hr) as (Hu&H). by rewrite <-HA.
  - destruct k as [h m|h].
    + destruct Hs as (Hu&H1&H2). split; [done|]. split.
      * intros v Hv. apply IH; [|done]. apply H1. by rewrite HA.
      * apply IH; [done|]. intros x [-> |Hx]%elem_of_cons; [done|by apply Hm].
    + destruct Hs as [H1 H2]. split; by apply IH.
  - destruct k as [h m|h].
    + destruct Hs as (Hu&H1&H2). rewrite <-HA by done. split; [done|]. split; [done|]. by apply IH.
    + destruct Hs as [H1 H2]. split; [done|]. by apply IH.
  - destruct Hs as (H1&H2&H3). split; [done|]. split; [done|]. intros l Hl. apply IH; [|done]. apply H3. rewrite HA; [done|]. by apply (Hm (h, i)).
  - by apply IH.
  - destruct Hs as (H1&H2&H3). split; [done|]. split; [done|]. by apply IH.
Qed.

(** ** The invariant *)
Notation booked := (booked parse init_docs).

Definition thread_ok (w : world) (c : call) (p : prog) : Prop :=
  ∃ ms puts ins, safe c (booked w) ms puts ins p ∧
    (∀ x, x ∈ ms → x.1 ∈ uses c ∧ booked w x.1 x.2 ≤ rooms_of (w_docs w) x.1 x.2) ∧
    (∀ k v, puts !! k = Some v → (∃ h m, k = KNight h m ∧ h ∈ uses c) ∧
       (w_cache w !! k = Some v ∨ (ev = true ∧ w_cache w !! k = None))) ∧
    (ev = true → ∀ h n, h ∈ uses c → booked w h n + rooms_of ins h n ≤ rooms_of (w_docs w) h n).
Record inv (w : world) : Prop := Inv {
  i_docs : Forall (λ d, 0 ≤ d_rooms d) (w_docs w);
  i_nums : ∀ h, number w h = number (started init_docs init_nums) h;
  i_cap : ∀ h v, w_cache w !! KCap h = Some v → v = cap h;
  i_cache : ∀ h n v, w_cache w !! KNight h (n + 1) = Some v → booked w h n ≤ v;
  i_absent : ∀ h n, w_cache w !! KNight h (n + 1) = None → booked w h n ≤ rooms_of (w_docs w) h n;
  i_ev : ev = true → ∀ h n, booked w h n ≤ rooms_of (w_docs w) h n;
  i_bound : ∀ h n, booked w h n ≤ cap h;
  i_excl : ∀ t t' c c' p p', t ≠ t' → w_calls w !! t = Some (c, Running p) → w_calls w !! t' = Some (c', Running p') → uses c ## uses c';
  i_threads : ∀ t c p, w_calls w !! t = Some (c, Running p) → thread_ok w c p }.

Definition share (c : call) (s : thread) (h : string) (n : Z) : Z := if decide (reserves parse c s h n) then c_rooms c else 0.
Lemma share_none c s h n : (∀ r, s ≠ Done r) → share c s h n = 0.
Proof. intros H. unfold share. rewrite decide_False; [done|]. intros (_&_&Hs). by destruct s as [|r|]; [|destruct (H r)|]. Qed.
Lemma booked_insert w t c s s' h n ca d nu :
  w_calls w !! t = Some (c, s) →
  booked (World ca d nu (<[t := (c, s')]> (w_calls w))) h n = booked w h n - share c s h n + share c s' h n.
Proof. intros Ht. unfold Hotel_Spec.booked. cbn [w_calls]. rewrite (zsum_insert _ _ _ _ _ Ht). cbn [fst snd]. unfold share. lia. Qed.
Lemma booked_calls w w' h n : w_calls w' = w_calls w → booked w' h n = booked w h n.
Proof. unfold Hotel_Spec.booked. by intros ->. Qed.
Lemma booked_app w c s h n : booked (set_calls w (w_calls w ++ [(c, s)])) h n = booked w h n + share c s h n.
Proof. unfold Hotel_Spec.booked, set_calls, share. cbn [w_calls]. rewrite fmap_app, zsum_app. simpl. lia. Qed.

(** What a call holds stays while nothing about its hotels changes. *)
Lemma thread_frame w w' c p :
  thread_ok w c p → (∀ h n, h ∈ uses c → booked w' h n = booked w h n) →
  (∀ h m, h ∈ uses c → w_cache w' !! KNight h m = w_cache w !! KNight h m ∨ (ev = true ∧ w_cache w' !! KNight h m = None)) →
  (∀ h n, rooms_of (w_docs w) h n ≤ rooms_of (w_docs w') h n) → thread_ok w' c p.
Proof.
  intros (ms&puts&ins&Hs&Hm&Hp&He) Hb Hc Hd. exists ms, puts, ins. split_and!.
  - eapply safe_ext; [done| |by intros x Hx; apply Hm]. intros h n Hh. by rewrite Hb.
  - intros x Hx. destruct (Hm x Hx) as [Hx1 Hx2]. split; [done|]. rewrite Hb by done. specialize (Hd x.1 x.2). lia.
  - intros k v Hk. destruct (Hp k v Hk) as [(h&m&->&Hh) Hc']. split; [by eexists _, _|].
    destruct (Hc h m Hh) as [->|?]; [done|by right].
  - intros Hev h n Hh. rewrite Hb by done. specialize (He Hev h n Hh). specialize (Hd h n). lia.
Qed.

(** A call that is over *)
Lemma inv_finish w t c p s :
  inv w → w_calls w !! t = Some (c, Running p) → ¬ is_running s →
  (∀ h n, reserves parse c s h n →
     h ∈ uses c ∧ booked w h n + c_rooms c ≤ cap h ∧
     (∀ v, w_cache w !! KNight h (n + 1) = Some v → booked w h n + c_rooms c ≤ v) ∧
     (w_cache w !! KNight h (n + 1) = None → booked w h n + c_rooms c ≤ rooms_of (w_docs w) h n) ∧
     (ev = true → booked w h n + c_rooms c ≤ rooms_of (w_docs w) h n)) →
  inv (set_calls w (<[t := (c, s)]> (w_calls w))).
Proof.
  intros [I1 I2 I3 I4 I5 I6 I7 I8 I9] Ht Hs Hr. set (w' := set_calls _ _).
  assert (∀ h n, booked w' h n = booked w h n + share c s h n) as Hb.
  { intros h n. unfold w', set_calls. rewrite (booked_insert w t c (Running p)) by done. rewrite (share_none c (Running p)) by done. lia. }
  assert (∀ t' c' p', w_calls w' !! t' = Some (c', Running p') → t' ≠ t ∧ w_calls w !! t' = Some (c', Running p')) as Hrun.
  { intros t' c' p' Ht'. unfold w' in Ht'. cbn [set_calls w_calls] in Ht'. destruct (decide (t' = t)) as [->|Hne].
    - rewrite list_lookup_insert in Ht' by (by eapply lookup_lt_Some). injection Ht' as -> ->. by destruct Hs.
    - by rewrite list_lookup_insert_ne in Ht'. }
  assert (∀ h n, share c s h n = 0 ∨ reserves parse c s h n ∧ share c s h n = c_rooms c) as Hsh.
  { intros h n. unfold share. destruct (decide _); auto. }
  split; cbn [w' set_calls w_docs w_cache w_nums w_calls]; try done.
  - intros h n v Hv. rewrite Hb. destruct (Hsh h n) as [->|[Hx ->]]; [specialize (I4 h n v Hv); lia|]. destruct (Hr h n Hx) as (_&H1&H2&H3&H4). auto.
  - intros h n Hv. rewrite Hb. destruct (Hsh h n) as [->|[Hx ->]]; [specialize (I5 h n Hv); lia|]. destruct (Hr h n Hx) as (_&H1&H2&H3&H4). auto.
  - intros Hev h n. rewrite Hb. destruct (Hsh h n) as [->|[Hx ->]]; [specialize (I6 Hev h n); lia|]. destruct (Hr h n Hx) as (_&H1&H2&H3&H4). auto.
  - intros h n. rewrite Hb. destruct (Hsh h n) as [->|[Hx ->]]; [specialize (I7 h n); lia|]. destruct (Hr h n Hx) as (_&H1&H2&H3&H4). auto.
  - intros t1 t2 c1 c2 p1 p2 Hne H1 H2. apply Hrun in H1 as [_ H1]. apply Hrun in H2 as [_ H2]. by eapply (I8 t1 t2).
  - intros t' c' p' Ht'. apply Hrun in Ht' as [Hne Ht']. apply (thread_frame w); [by eapply I9| | |done].
    + intros h n Hh. rewrite Hb. destruct (Hsh h n) as [->|[Hx _]]; [lia|]. destruct (Hr h n Hx) as [Hu _].
      exfalso. by apply (I8 t t' c c' p p' (not_eq_sym Hne) Ht Ht' h).
    + by left.
Qed.
Lemma inv_fail w t c p s :
  inv w → w_calls w !! t = Some (c, Running p) → s = Done Failed ∨ s = Gone → inv (set_calls w (<[t := (c, s)]> (w_calls w))).
Proof.
  intros Hi Ht Hs. eapply inv_finish; [done|done|destruct Hs as [-> | ->]; by intros []|].
  intros h n (_&_&Hr). by destruct Hs as [-> | ->].
Qed.
Lemma inv_settle w t c p :
  inv w → w_calls w !! t = Some (c, Running p) → inv (set_calls w (<[t := (c, settle p)]> (w_calls w))).
Proof.
  intros Hi Ht. destruct p as [r|k g|k v p|h i o g|h g|d p]; cbn [settle].
  2-6: rewrite list_insert_id by done; by destruct w.
  eapply inv_finish; [done|done|by intros []|]. intros h n Hr.
  destruct (i_threads w Hi t c _ Ht) as (ms&puts&ins&Hs&Hm&Hp&He). cbn in Hs. destruct (Hs h n Hr) as (Hu&Hc&(v&Hv&Hb)&Hev).
  destruct (Hp _ _ Hv) as [_ Hk].
  assert (ev = true → booked w h n + c_rooms c ≤ rooms_of (w_docs w) h n) as H.
  { intros E. specialize (Hev E). specialize (He E h n Hu). lia. }
  split_and!; [done|done| | |done].
  - intros v' Hv'. destruct Hk as [Hk|[_ Hk]]; rewrite Hk in Hv'; by simplify_eq.
  - intros Hv'. destruct Hk as [Hk|[Hk _]]; [by rewrite Hk in Hv'|auto].
Qed.
(** A step of a call *)
Lemma inv_exec w t c p f p' w' :
  inv w → w_calls w !! t = Some (c, Running p) → f ≠ Cut → exec p f w = (p', w') →
  inv (set_calls w' (<[t := (c, Running p')]> (w_calls w))).
Proof.
  intros Hi Ht Hf Hx. set (w2 := set_calls _ _).
  assert (w_calls w' = w_calls w) as Hcs by (destruct p; simpl in Hx; injection Hx as _ <-; done).
  assert (∀ h n, booked w2 h n = booked w h n) as Hb.
  { intros h n. unfold w2, set_calls. rewrite (booked_insert w t c (Running p)) by done.
    rewrite !(share_none c (Running _)) by done. lia. }
  assert (∀ t' c' q, w_calls w2 !! t' = Some (c', Running q) →
    (t' = t ∧ c' = c ∧ q = p') ∨ (t' ≠ t ∧ w_calls w !! t' = Some (c', Running q))) as Hrun.
  { intros t' c' q Ht'. unfold w2 in Ht'. cbn [set_calls w_calls] in Ht'. destruct (decide (t' = t)) as [->|Hne].
    - rewrite list_lookup_insert in Ht' by (by eapply lookup_lt_Some). left. by simplify_eq.
    - right. by rewrite list_lookup_insert_ne in Ht'. }
  pose proof Hi as [I1 I2 I3 I4 I5 I6 I7 I8 I9].
  destruct (I9 t c p Ht) as (ms&puts&ins&Hs&Hm&Hp&He).
  assert (∀ t1 t2 c1 c2 p1 p2, t1 ≠ t2 → w_calls w2 !! t1 = Some (c1, Running p1) → w_calls w2 !! t2 = Some (c2, Running p2) →
    uses c1 ## uses c2) as J8.
  { intros t1 t2 c1 c2 p1 p2 Hne H1 H2.
    apply Hrun in H1 as [(->&->&->)|[Hn1 H1]]; apply Hrun in H2 as [(->&->&->)|[Hn2 H2]]; try done.
    - by eapply (I8 t t2).
    - by eapply (I8 t1 t).
    - by eapply (I8 t1 t2). }
  assert (∀ ms' puts' ins', safe c (booked w) ms' puts' ins' p' →
      (∀ x, x ∈ ms' → x.1 ∈ uses c ∧ booked w x.1 x.2 ≤ rooms_of (w_docs w') x.1 x.2) →
      (∀ k v, puts' !! k = Some v → (∃ h m, k = KNight h m ∧ h ∈ uses c) ∧
         (w_cache w' !! k = Some v ∨ (ev = true ∧ w_cache w' !! k = None))) →
      (ev = true → ∀ h n, h ∈ uses c → booked w h n + rooms_of ins' h n ≤ rooms_of (w_docs w') h n) →
      (∀ h m, (∃ t', t' ≠ t ∧ ∃ c' q, w_calls w !! t' = Some (c', Running q) ∧ h ∈ uses c') → w_cache w' !! KNight h m = w_cache w !! KNight h m) →
      (∀ h n, rooms_of (w_docs w) h n ≤ rooms_of (w_docs w') h n) →
      ∀ t' c' q, w_calls w2 !! t' = Some (c', Running q) → thread_ok w2 c' q) as J9.
  { intros ms' puts' ins' Hs' Hm' Hp' He' Hc Hd t' c' q Hq. apply Hrun in Hq as [(->&->&->)|[Hne Hq]].
    - exists ms', puts', ins'. split_and!; [|by intros; rewrite Hb; apply Hm'|done|].
      + eapply safe_ext; [done|by intros; rewrite Hb|by intros x Hx'; apply Hm'].
      + intros Hev h n Hh. rewrite Hb. by apply He'.
    - apply (thread_frame w); [by eapply I9|by intros; apply Hb| |done].
      intros h m Hh. left. apply Hc. exists t'. split; [done|]. by exists c', q. }
  assert (∀ h, h ∈ uses c → ¬ ∃ t', t' ≠ t ∧ ∃ c' q, w_calls w !! t' = Some (c', Running q) ∧ h ∈ uses c') as Hex.
  { intros h Hh (t'&Hne&c'&q&Hq&Hh'). by apply (I8 t t' c c' p q (not_eq_sym Hne) Ht Hq h). }
  destruct p as [r|k g|k v p|h i o g|h g|d p]; simpl in Hx; injection Hx as <- <-; cbn [safe] in Hs.
  - split; try done; [intros ??; rewrite Hb; apply I4|intros ??; rewrite Hb; apply I5|intros ???; rewrite Hb; by apply I6|intros ??; rewrite Hb; apply I7|].
    by apply (J9 ms puts ins).
  - split; try done; [intros ??; rewrite Hb; apply I4|intros ??; rewrite Hb; apply I5|intros ???; rewrite Hb; by apply I6|intros ??; rewrite Hb; apply I7|].
    destruct k as [h m|h].
    + destruct Hs as (Hu&H1&H2). destruct (w_cache w !! KNight h m) as [v|] eqn:Ek.
      * apply (J9 ms puts ins); try done. apply H1. apply (I4 h). by replace (m - 1 + 1) with m by lia.
      * apply (J9 ((h, m - 1) :: ms) puts ins); try done. intros x [->|Hx']%elem_of_cons; [|by apply Hm].
        split; [done|]. apply I5. simpl. by replace (m - 1 + 1) with m by lia.
    + destruct Hs as [H1 H2]. apply (J9 ms puts ins); try done. destruct (w_cache w !! KCap h) as [v|] eqn:Ek; [|done].
      by rewrite (I3 h v Ek).
  - destruct k as [h m|h].
    + destruct Hs as (Hu&H1&H2). split; try done.
      * intros h' v' Hv'. cbn in Hv'. rewrite lookup_insert_ne in Hv' by done. by apply I3.
      * intros h' n v' Hv'. cbn in Hv'. rewrite Hb. destruct (decide (KNight h m = KNight h' (n + 1))) as [[= -> ->]|Hne].
        { rewrite lookup_insert in Hv'. simplify_eq. by replace (n + 1 - 1) with n in H1 by lia. }
        rewrite lookup_insert_ne in Hv' by done. by apply I4.
      * intros h' n Hv'. cbn in Hv'. apply lookup_insert_None in Hv' as [Hv' _]. rewrite Hb. by apply I5.
      * intros ???. rewrite Hb. by apply I6.
      * intros ??. rewrite Hb. apply I7.
      * apply (J9 ms (<[KNight h m := v]> puts) ins); try done.
        -- intros k v' Hk. destruct (decide (KNight h m = k)) as [<-|Hne].
           { rewrite lookup_insert in Hk. simplify_eq. split; [by eexists _, _|]. left. cbn. by rewrite lookup_insert. }
           rewrite lookup_insert_ne in Hk by done. cbn. rewrite lookup_insert_ne by done. by apply Hp.
        -- intros h' m' Hh'. cbn. rewrite lookup_insert_ne; [done|]. intros [= -> ->]. by apply (Hex h').
    + destruct Hs as [-> H2]. split; try done.
      * intros h' v' Hv'. cbn in Hv'. destruct (decide (h = h')) as [->|Hne].
        { rewrite lookup_insert in Hv'. by simplify_eq. }
        rewrite lookup_insert_ne in Hv' by congruence. by apply I3.
      * intros h' n v' Hv'. cbn in Hv'. rewrite lookup_insert_ne in Hv' by done. rewrite Hb. by apply I4.
      * intros h' n Hv'. cbn in Hv'. rewrite lookup_insert_ne in Hv' by done. rewrite Hb. by apply I5.
      * intros ???. rewrite Hb. by apply I6.
      * intros ??. rewrite Hb. apply I7.
      * apply (J9 ms puts ins); try done.
        -- intros k v' Hk. destruct (Hp k v' Hk) as [(h'&m'&->&Hh') Hc]. split; [by eexists _, _|]. cbn. by rewrite lookup_insert_ne.
        -- intros h' m' Hh'. cbn. by rewrite lookup_insert_ne.
  - destruct Hs as (H1&->&H3). split; try done; [intros ??; rewrite Hb; apply I4|intros ??; rewrite Hb; apply I5|intros ???; rewrite Hb; by apply I6|intros ??; rewrite Hb; apply I7|].
    apply (J9 ms puts ins); try done. destruct f; try done; apply H3; rewrite found_rooms; by apply (Hm (h, i)).
  - split; try done; [intros ??; rewrite Hb; apply I4|intros ??; rewrite Hb; apply I5|intros ???; rewrite Hb; by apply I6|intros ??; rewrite Hb; apply I7|].
    apply (J9 ms puts ins); try done. rewrite <-I2 in Hs. by destruct f.
  - destruct Hs as (H1&H2&H3).
    assert (∀ h n, 0 ≤ rooms_of [d] h n) as Hd by (intros; apply rooms_nonneg; by constructor).
    split; try done; cbn [w2 set_calls w_docs w_cache w_nums].
    + apply Forall_app. split; [done|]. by constructor.
    + intros h n v. rewrite Hb. apply I4.
    + intros h n Hv. rewrite Hb, rooms_app. specialize (I5 h n Hv). specialize (Hd h n). lia.
    + intros Hev h n. rewrite Hb, rooms_app. specialize (I6 Hev h n). specialize (Hd h n). lia.
    + intros ??. rewrite Hb. apply I7.
    + apply (J9 ms puts (ins ++ [d])); try done; cbn [w_docs].
      * intros x Hx. destruct (Hm x Hx). split; [done|]. rewrite rooms_app. specialize (Hd x.1 x.2). lia.
      * intros Hev h n Hh. rewrite !rooms_app. specialize (He Hev h n Hh). lia.
      * intros h n. rewrite rooms_app. specialize (Hd h n). lia.
Qed.
Lemma inv_start w c :
  inv w → exclusive w (Start c) → sensible parse (Start c) → (ev = true → one_night parse (Start c)) →
  inv (set_calls w (w_calls w ++ [(c, Running (program parse Z.add c))])).
Proof.
  intros Hi Hex Hs Ho. set (w' := set_calls _ _). pose proof Hi as [I1 I2 I3 I4 I5 I6 I7 I8 I9].
  assert (∀ h n, booked w' h n = booked w h n) as Hb.
  { intros h n. unfold w'. rewrite booked_app, share_none by done. lia. }
  assert (∀ t' c' q, w_calls w' !! t' = Some (c', Running q) →
    (t' = length (w_calls w) ∧ c' = c ∧ q = program parse Z.add c) ∨ w_calls w !! t' = Some (c', Running q)) as Hrun.
  { intros t' c' q Ht'. unfold w' in Ht'. cbn [set_calls w_calls] in Ht'.
    apply lookup_app_Some in Ht' as [Ht'|[Hl Ht']]; [by right|]. left.
    apply list_lookup_singleton_Some in Ht' as [Hz [= -> ->]]. split_and!; [lia|done..]. }
  split; try done; [intros ??; rewrite Hb; apply I4|intros ??; rewrite Hb; apply I5|intros ???; rewrite Hb; by apply I6|intros ??; rewrite Hb; apply I7| |].
  - intros t1 t2 c1 c2 p1 p2 Hne H1 H2.
    apply Hrun in H1 as [(->&->&->)|H1]; apply Hrun in H2 as [(->&->&->)|H2]; try done.
    + apply (Hex c2 (Running p2)); [by eapply elem_of_list_lookup_2|exact I].
    + intros x Hx1 Hx2. apply (Hex c1 (Running p1)) with x; [by eapply elem_of_list_lookup_2|exact I|done|done].
    + by eapply (I8 t1 t2).
  - intros t' c' q Hq. apply Hrun in Hq as [(->&->&->)|Hq].
    + exists [], ∅, []. split_and!; [by apply safe_program|set_solver|intros ??; by rewrite lookup_empty|].
      intros Hev h n _. specialize (I6 Hev h n). rewrite Hb. change (rooms_of [] h n) with 0. cbn [w' set_calls w_docs]. lia.
    + apply (thread_frame w); [by eapply I9|by intros; apply Hb|by left|done].
Qed.
Lemma inv_evict w k : inv w → ev = true → inv (World (delete k (w_cache w)) (w_docs w) (w_nums w) (w_calls w)).
Proof.
  intros Hi Hev. set (w' := World _ _ _ _). pose proof Hi as [I1 I2 I3 I4 I5 I6 I7 I8 I9].
  assert (∀ h n, booked w' h n = booked w h n) as Hb by done.
  split; try done.
  - intros h v Hv. cbn [w' w_cache] in Hv. apply lookup_delete_Some in Hv as [_ Hv]. by apply I3.
  - intros h n v Hv. cbn [w' w_cache] in Hv. apply lookup_delete_Some in Hv as [_ Hv]. by apply I4.
  - intros h n _. by apply I6.
  - intros t c p Ht. apply (thread_frame w); [by eapply I9|done| |done].
    intros h m _. cbn. destruct (decide (k = KNight h m)) as [->|Hne]; [right; by rewrite lookup_delete|left; by rewrite lookup_delete_ne].
Qed.
Lemma inv_restart w : Forall (λ d, 0 ≤ d_rooms d) init_docs → inv w →
  inv (World (w_cache w) (w_docs w ++ init_docs) (w_nums w ++ init_nums)
         ((λ x : call * thread, (x.1, match x.2 with Running _ => Gone | s => s end)) <$> w_calls w)).
Proof.
  intros Hn Hi. set (w' := World _ _ _ _). pose proof Hi as [I1 I2 I3 I4 I5 I6 I7 I8 I9].
  assert (∀ h n, booked w' h n = booked w h n) as Hb.
  { intros h n. unfold Hotel_Spec.booked, w'. cbn [w_calls]. f_equal. rewrite <-list_fmap_compose. apply zsum_ext.
    intros [c [p|r|]] _; [|done..]. cbn. rewrite !decide_False; [done|intros (_&_&[])|intros (_&_&[])]. }
  assert (∀ t c p, w_calls w' !! t = Some (c, Running p) → False) as Hrun.
  { intros t c p Ht. unfold w' in Ht. cbn [w_calls] in Ht. rewrite list_lookup_fmap in Ht.
    by destruct (w_calls w !! t) as [[c' [q|r|]]|]. }
  assert (∀ h n, 0 ≤ rooms_of init_docs h n) as Hd by (intros; by apply rooms_nonneg).
  split; cbn [w' w_docs w_cache w_nums]; try done.
  - by apply Forall_app.
  - intros h. rewrite <-(I2 h). unfold number. cbn [w' w_nums]. rewrite filter_app.
    destruct (filter _ (w_nums w)) eqn:E; [|done]. specialize (I2 h). unfold number in I2. rewrite E in I2. by rewrite I2.
  - intros h n v. rewrite Hb. apply I4.
  - intros h n Hv. rewrite Hb, rooms_app. specialize (I5 h n Hv). specialize (Hd h n). lia.
  - intros Hev h n. rewrite Hb, rooms_app. specialize (I6 Hev h n). specialize (Hd h n). lia.
  - intros h n. rewrite Hb. apply I7.
  - intros t t' c c' p p' _ H. by apply Hrun in H.
  - intros t c p H. by apply Hrun in H.
Qed.
Lemma inv_step w e w' :
  Forall (λ d, 0 ≤ d_rooms d) init_docs →
  inv w → exclusive w e → sensible parse e → (ev = true → one_night parse e) → (ev = false → keeps_cache e) →
  step parse Z.add init_docs init_nums e w = Some w' → inv w'.
Proof.
  intros Hn Hi Hex Hs Ho Hk Hst. destruct e as [c|t f|k|]; cbn [step] in Hst.
  - injection Hst as <-. pose proof (inv_start w c Hi Hex Hs Ho) as H. eapply inv_settle in H.
    2: { cbn [set_calls w_calls]. apply list_lookup_middle. done. }
    cbn [set_calls w_calls] in H. unfold set_calls in *. cbn [w_cache w_docs w_nums w_calls] in H.
    rewrite <-(Nat.add_0_r (length (w_calls w))), insert_app_r in H. done.
  - destruct (w_calls w !! t) as [[c [p|r|]]|] eqn:Ht; try done. destruct (exec p f w) as [p' w2] eqn:Ex. injection Hst as <-.
    assert (w_calls w2 = w_calls w) as Hcs by (destruct p; simpl in Ex; injection Ex as _ <-; done).
    assert (inv (set_calls w2 (<[t := (c, Running p')]> (w_calls w)))) as H by by eapply inv_exec.
    assert (∀ s, set_calls (set_calls w2 (<[t := (c, Running p')]> (w_calls w))) (<[t := (c, s)]> (<[t := (c, Running p')]> (w_calls w)))
             = set_calls w2 (<[t := (c, s)]> (w_calls w))) as E.
    { intros s. unfold set_calls. cbn. by rewrite list_insert_insert. }
    assert (<[t := (c, Running p')]> (w_calls w) !! t = Some (c, Running p')) as Hl.
    { apply list_lookup_insert. by eapply lookup_lt_Some. }
    destruct f.
    + eapply inv_settle in H; [|done]. cbn [set_calls w_calls] in H. by rewrite E in H.
    + eapply inv_fail; [done|done|by left].
    + eapply (inv_fail _ t c p' (Done Failed)) in H; [|done|by left]. cbn [set_calls w_calls] in H. by rewrite E in H.
    + done.
  - injection Hst as <-. apply inv_evict; [done|]. destruct ev; [done|]. by destruct (Hk eq_refl).
  - injection Hst as <-. by apply inv_restart.
Qed.
Lemma inv_started :
  Forall (λ d, 0 ≤ d_rooms d) init_docs → (∀ h n, rooms_of init_docs h n ≤ cap h) → inv (started init_docs init_nums).
Proof.
  intros Hn Hc. assert (∀ h n, booked (started init_docs init_nums) h n = rooms_of init_docs h n) as Hb.
  { intros h n. unfold Hotel_Spec.booked. cbn. lia. }
  split; try done.
  - intros h n _. by rewrite Hb.
  - intros _ h n. by rewrite Hb.
  - intros h n. by rewrite Hb.
Qed.
End proof.

(** ** One call at a time *)
Section alone.
Context (parse : string → option Z) (init_docs : list doc) (init_nums : list (string * Z)).
Notation stay := (stay parse).
Notation cap := (capacity init_docs init_nums).

(** The cache and the database show exactly what is booked. *)
Record exact (s : gmap ckey Z * list doc) (b : string → Z → Z) : Prop := Exact {
  e_cap : ∀ h v, s.1 !! KCap h = Some v → v = cap h;
  e_cache : ∀ h n v, s.1 !! KNight h (n + 1) = Some v → v = b h n;
  e_absent : ∀ h n, s.1 !! KNight h (n + 1) = None → rooms_of s.2 h n = b h n }.

Lemma exact_cap s b h : exact s b → exact (<[KCap h := cap h]> s.1, s.2) b.
Proof.
  intros [E1 E2 E3]. split; simpl.
  - intros h' v Hv. destruct (decide (h = h')) as [->|Hne].
    + rewrite lookup_insert in Hv. by simplify_eq.
    + rewrite lookup_insert_ne in Hv by congruence. by apply E1.
  - intros h' n v Hv. rewrite lookup_insert_ne in Hv by done. by apply E2.
  - intros h' n Hv. rewrite lookup_insert_ne in Hv by done. by apply E3.
Qed.
Lemma exact_night s b h n : exact s b → exact (<[KNight h (n + 1) := b h n]> s.1, s.2) b.
Proof.
  intros [E1 E2 E3]. split; simpl.
  - intros h' v Hv. rewrite lookup_insert_ne in Hv by done. by apply E1.
  - intros h' n' v Hv. destruct (decide (KNight h (n + 1) = KNight h' (n' + 1))) as [[= -> Hn]|Hne].
    + assert (n' = n) as -> by lia. rewrite lookup_insert in Hv. by simplify_eq.
    + rewrite lookup_insert_ne in Hv by done. by apply E2.
  - intros h' n' Hv. apply lookup_insert_None in Hv as [Hv _]. by apply E3.
Qed.
Lemma run_capacity h k s b :
  exact s b → ∃ s', exact s' b ∧ s'.2 = s.2 ∧ run_prog (with_capacity h k) s init_nums = run_prog (k (cap h)) s' init_nums.
Proof.
  intros He. cbn [with_capacity run_prog]. destruct (s.1 !! KCap h) as [v|] eqn:Ek.
  - exists s. by rewrite (e_cap s b He h v Ek).
  - cbn [run_prog]. change (default 0 (number _ h)) with (cap h). exists (<[KCap h := cap h]> s.1, s.2). split; [by apply exact_cap|done].
Qed.
Lemma run_check_nights h rooms ns p b :
  ∀ s upd, exact s b → ∃ s', exact s' b ∧ s'.2 = s.2 ∧
    run_prog (check_nights Z.add h rooms ns upd p) s init_nums =
    if forallb (λ n, b h n + rooms <=? cap h) ns
    then run_prog (p (upd ++ ((λ n, (KNight h (n + 1), b h n + rooms)) <$> ns))) s' init_nums
    else (Hotels [], s').
Proof.
  induction ns as [|n ns IH]; intros s upd He.
  { exists s. simpl. by rewrite app_nil_r. }
  assert (∃ s', exact s' b ∧ s'.2 = s.2 ∧
    run_prog (with_capacity h (λ cap, if cap <? b h n + rooms then Ret (Hotels [])
        else check_nights Z.add h rooms ns (upd ++ [(KNight h (n + 1), b h n + rooms)]) p)) s init_nums =
    if forallb (λ n, b h n + rooms <=? cap h) (n :: ns)
    then run_prog (p (upd ++ ((λ n, (KNight h (n + 1), b h n + rooms)) <$> n :: ns))) s' init_nums
    else (Hotels [], s')) as (s'&E1&E2&E3).
  { destruct (run_capacity h (λ cap, if cap <? b h n + rooms then Ret (Hotels [])
        else check_nights Z.add h rooms ns (upd ++ [(KNight h (n + 1), b h n + rooms)]) p) s b He) as (s1&A1&A2&->).
    cbn [forallb]. destruct (Z.ltb_spec (cap h) (b h n + rooms)) as [Hlt|Hge].
    - exists s1. assert ((b h n + rooms <=? cap h) = false) as -> by by apply Z.leb_gt. done.
    - assert ((b h n + rooms <=? cap h) = true) as -> by by apply Z.leb_le.
      destruct (IH s1 (upd ++ [(KNight h (n + 1), b h n + rooms)]) A1) as (s2&B1&B2&->).
      exists s2. rewrite <-app_assoc. split; [done|]. split; [congruence|done]. }
  exists s'. split; [done|]. split; [done|]. rewrite <-E3. cbn [check_nights run_prog].
  destruct (s.1 !! KNight h (n + 1)) as [v|] eqn:Ek.
  - by rewrite (e_cache s b He h n v Ek).
  - cbn [run_prog]. rewrite total_zsum, found_rooms. cbn [w_docs]. by rewrite (e_absent s b He h n Ek).
Qed.
Lemma run_insert_all h cust day rooms ns p s :
  run_prog (insert_all h cust day rooms ns p) s init_nums =
  run_prog p (s.1, s.2 ++ ((λ n, Doc h cust day (n + 1) rooms) <$> ns)) init_nums.
Proof.
  revert s. induction ns as [|n ns IH]; intros [ca l]; simpl; [by rewrite app_nil_r|]. rewrite IH. simpl. by rewrite <-app_assoc.
Qed.
Lemma run_put_all l p s :
  NoDup l.*1 → ∃ ca, run_prog (put_all l p) s init_nums = run_prog p (ca, s.2) init_nums ∧
    (∀ k v, (k, v) ∈ l → ca !! k = Some v) ∧ (∀ k, k ∉ l.*1 → ca !! k = s.1 !! k).
Proof.
  revert s. induction l as [|[k v] l IH]; intros [ca docs] Hd; simpl.
  - exists ca. split_and!; [done|set_solver|done].
  - apply NoDup_cons in Hd as [Hk Hd]. simpl in Hk. destruct (IH (<[k := v]> ca, docs) Hd) as (ca'&E1&E2&E3).
    exists ca'. split_and!; [done| |].
    + intros k' v' [[= -> ->]|Hin]%elem_of_cons; [|by apply E2]. rewrite E3 by done. simpl. by rewrite lookup_insert.
    + intros k' [Hk1 Hk2]%not_elem_of_cons. rewrite E3 by done. simpl. by rewrite lookup_insert_ne.
Qed.
Lemma run_check_hotel h rooms last ns p b :
  ∀ s, exact s b → ∃ s', exact s' b ∧ s'.2 = s.2 ∧
    run_prog (check_hotel Z.add h rooms last ns p) s init_nums =
    run_prog (p (match ns with [] => false | _ => forallb (λ n, b h n + rooms <=? cap h) ns && last end)) s' init_nums.
Proof.
  induction ns as [|n ns IH]; intros s He; [by exists s|].
  assert (∀ s, exact s b → ∃ s', exact s' b ∧ s'.2 = s.2 ∧
    run_prog (with_capacity h (λ cap, if cap <? b h n + rooms then p false
        else match ns with [] => p last | _ => check_hotel Z.add h rooms last ns p end)) s init_nums =
    run_prog (p (forallb (λ n, b h n + rooms <=? cap h) (n :: ns) && last)) s' init_nums) as Ha.
  { clear s He. intros s He. destruct (run_capacity h (λ cap, if cap <? b h n + rooms then p false
        else match ns with [] => p last | _ => check_hotel Z.add h rooms last ns p end) s b He) as (s1&A1&A2&->).
    cbn [forallb]. destruct (Z.ltb_spec (cap h) (b h n + rooms)) as [Hlt|Hge].
    - exists s1. assert ((b h n + rooms <=? cap h) = false) as -> by by apply Z.leb_gt. done.
    - assert ((b h n + rooms <=? cap h) = true) as -> by by apply Z.leb_le.
      destruct ns as [|n' ns]; [by exists s1|].
      destruct (IH s1 A1) as (s2&B1&B2&->). exists s2. split; [done|]. split; [congruence|done]. }
  cbn [check_hotel run_prog]. destruct (s.1 !! KNight h (n + 1)) as [v|] eqn:Ek.
  - rewrite (e_cache s b He h n v Ek). by apply Ha.
  - cbn [run_prog]. rewrite !total_zsum, !found_rooms. cbn [w_docs]. rewrite !(e_absent s b He h n Ek).
    destruct (Ha (<[KNight h (n + 1) := b h n]> s.1, s.2)) as (s'&E1&E2&E3); [by apply exact_night|]. by exists s'.
Qed.
Lemma run_check_hotels c last b :
  ∀ hs acc s, exact s b → ∃ s', exact s' b ∧
    run_prog (check_hotels Z.add (c_rooms c) last (stay c) hs acc) s init_nums =
    (Hotels (acc ++ filter (λ h, stay c ≠ [] ∧ Is_true (fits parse init_docs init_nums b c h && last)) hs), s').
Proof.
  induction hs as [|h hs IH]; intros acc s He; cbn [check_hotels].
  { exists s. cbn. by rewrite app_nil_r. }
  destruct (run_check_hotel h (c_rooms c) last (stay c)
    (λ b0, check_hotels Z.add (c_rooms c) last (stay c) hs (if b0 : bool then acc ++ [h] else acc)) b s He) as (s1&E1&E2&->).
  rewrite filter_cons. fold (fits parse init_docs init_nums b c h).
  destruct (stay c) as [|n ns] eqn:Es.
  - rewrite decide_False by naive_solver. destruct (IH acc s1 E1) as (s2&F1&F2). by exists s2.
  - destruct (fits parse init_docs init_nums b c h && last) eqn:Ef.
    + rewrite decide_True by done. destruct (IH (acc ++ [h]) s1 E1) as (s2&F1&F2). exists s2. rewrite <-app_assoc in F2. done.
    + rewrite decide_False by naive_solver. destruct (IH acc s1 E1) as (s2&F1&F2). by exists s2.
Qed.

Lemma run_program c b s :
  exact s b → dated parse c →
  ∃ s', exact s' (ideal parse init_docs init_nums c b).2 ∧
    run_prog (program parse Z.add c) s init_nums = ((ideal parse init_docs init_nums c b).1, s').
Proof.
  intros He (Hf&Ht&Ho). unfold program, ideal. destruct (c_make c) eqn:Em.
  - unfold make. destruct (c_hotels c) as [|h hs] eqn:Eh; [by exists s|]. rewrite days_stay by done.
    set (p := λ upd, insert_all _ _ _ _ _ _). destruct (run_check_nights h (c_rooms c) (stay c) p b s [] He) as (s1&A1&A2&->).
    fold (fits parse init_docs init_nums b c h). destruct (fits parse init_docs init_nums b c h) eqn:Efit; [|by exists s1].
    simpl. unfold p. rewrite run_insert_all. set (l := _ <$> stay c). pose proof (Ho l) as Hp.
    assert (l.*1 = (λ n, KNight h (n + 1)) <$> stay c) as Hk by (unfold l; by rewrite <-list_fmap_compose).
    destruct (run_put_all (c_order c l) (Ret (Hotels [h])) (s1.1, s1.2 ++ ((λ n, Doc h (c_customer c) (clock parse (c_from c) `div` 2) (n + 1) (c_rooms c)) <$> stay c)))
      as (ca&->&B1&B2).
    { rewrite Hp, Hk. apply NoDup_fmap_2; [intros x y [=]; lia|].
      unfold stay, Hotel_Spec.stay. destruct Hf as [a ->], Ht as [b' ->]. apply NoDup_seqZ. }
    cbn [run_prog snd]. eexists. split; [|done].
    assert (∀ k, k ∉ l.*1 → ca !! k = s1.1 !! k) as B2'.
    { intros k Hkn. apply B2. by rewrite Hp. }
    destruct A1 as [E1 E2 E3]. split; simpl.
    + intros h' v. rewrite B2'; [apply E1|]. rewrite Hk. intros (n&[=]&_)%elem_of_list_fmap.
    + intros h' n v Hv. unfold reserve. destruct (decide (h' = h ∧ n ∈ stay c)) as [[-> Hn]|Hne].
      * rewrite (B1 (KNight h (n + 1)) (b h n + c_rooms c)) in Hv; [by simplify_eq|]. rewrite Hp.
        apply elem_of_list_fmap. by exists n.
      * rewrite B2' in Hv; [by apply E2|]. rewrite Hk. intros (n'&[= -> Hn]&Hn')%elem_of_list_fmap.
        apply Hne. split; [done|]. by assert (n = n') as -> by lia.
    + intros h' n Hv. unfold reserve. destruct (decide (h' = h ∧ n ∈ stay c)) as [[-> Hn]|Hne].
      * rewrite (B1 (KNight h (n + 1)) (b h n + c_rooms c)) in Hv; [done|]. rewrite Hp.
        apply elem_of_list_fmap. by exists n.
      * rewrite B2' in Hv.
        2: { rewrite Hk. intros (n'&[= -> Hn]&Hn')%elem_of_list_fmap. apply Hne. split; [done|]. by assert (n = n') as -> by lia. }
        rewrite rooms_app, (E3 h' n Hv). unfold rooms_of. rewrite <-list_fmap_compose.
        rewrite (zsum_ext _ (λ _, 0)).
        { assert (zsum ((λ _, 0) <$> stay c) = 0) as ->; [|lia]. clear. induction (stay c) as [|x l IH]; [done|]. by rewrite fmap_cons, zsum_cons, IH. }
        intros n' Hn'. simpl. rewrite decide_False; [done|]. intros (-> & _ & Hx). apply Hne. split; [done|]. by assert (n = n') as -> by lia.
  - unfold check. rewrite days_stay by done.
    assert (Z.even (clock parse (c_to c) - clock parse (c_from c)) = true) as ->.
    { unfold clock. destruct Hf as [a ->], Ht as [b' ->]. replace (2 * b' + 1 - (2 * a + 1)) with (2 * (b' - a)) by lia. by rewrite Z.even_mul. }
    destruct (run_check_hotels c true b (c_hotels c) [] s He) as (s'&E1&E2). rewrite E2. exists s'. simpl. split; [done|]. f_equal. f_equal.
    apply list_filter_iff. intros h. by rewrite andb_true_r.
Qed.
Lemma run_calls_ideals cs :
  Forall (dated parse) cs →
  (run_calls parse Z.add init_docs init_nums cs).1 = (ideals parse init_docs init_nums cs (rooms_of init_docs)).1.
Proof.
  intros Hd. unfold run_calls.
  assert (∀ b st, exact st.2 b →
    (foldl (λ st c, let '(r, s) := run_prog (program parse Z.add c) st.2 init_nums in (st.1 ++ [r], s)) st cs).1 =
    st.1 ++ (ideals parse init_docs init_nums cs b).1) as H.
  { induction Hd as [|c cs Hc Hcs IH]; intros b [rs s] He; simpl; [by rewrite app_nil_r|]. simpl in He.
    destruct (run_program c b s He Hc) as (s'&E1&->). destruct (ideal parse init_docs init_nums c b) as [r b']. simpl in *.
    rewrite (IH b') by done. destruct (ideals _ _ _ cs b') as [rs' b'']. simpl. by rewrite <-app_assoc. }
  rewrite (H (rooms_of init_docs)); [done|]. split; simpl; done.
Qed.

(** The same as steps of the service *)
Fixpoint run_world (add : Z → Z → Z) (es : list event) (w : world) : option world :=
  match es with
  | [] => Some w
  | e :: es => match step parse add init_docs init_nums e w with Some w => run_world add es w | None => None end
  end.
Lemma run_steps add p : ∀ w t c, w_calls w !! t = Some (c, settle p) →
  ∃ k, run_world add (replicate k (Step t Fine)) w =
       Some (World (run_prog p (w_cache w, w_docs w) (w_nums w)).2.1 (run_prog p (w_cache w, w_docs w) (w_nums w)).2.2 (w_nums w)
               (<[t := (c, Done (run_prog p (w_cache w, w_docs w) (w_nums w)).1)]> (w_calls w))).
Proof.
  assert (∀ q w' w t c, w_calls w' = <[t := (c, settle q)]> (w_calls w) → w_nums w' = w_nums w →
    (∀ w t c, w_calls w !! t = Some (c, settle q) → ∃ k, run_world add (replicate k (Step t Fine)) w =
       Some (World (run_prog q (w_cache w, w_docs w) (w_nums w)).2.1 (run_prog q (w_cache w, w_docs w) (w_nums w)).2.2 (w_nums w)
               (<[t := (c, Done (run_prog q (w_cache w, w_docs w) (w_nums w)).1)]> (w_calls w)))) →
    (t < length (w_calls w))%nat → ∃ k, run_world add (replicate k (Step t Fine)) w' =
       Some (World (run_prog q (w_cache w', w_docs w') (w_nums w)).2.1 (run_prog q (w_cache w', w_docs w') (w_nums w)).2.2 (w_nums w)
               (<[t := (c, Done (run_prog q (w_cache w', w_docs w') (w_nums w)).1)]> (w_calls w)))) as Hgo.
  { intros q w' w t c Hc Hn IH Hl. destruct (IH w' t c) as [k Hk].
    { rewrite Hc. by apply list_lookup_insert. }
    exists k. rewrite Hk, Hc, Hn, list_insert_insert. done. }
  induction p as [r|k g IH|k v p IH|h i o g IH|h g IH|d p IH]; intros w t c Ht; pose proof (lookup_lt_Some _ _ _ Ht) as Hl; cbn [settle run_prog fst snd] in *.
  - exists 0%nat. simpl. rewrite list_insert_id by done. by destruct w.
  - destruct (Hgo (g (w_cache w !! k)) (set_calls w (<[t := (c, settle (g (w_cache w !! k)))]> (w_calls w))) w t c eq_refl eq_refl (IH _) Hl) as [n Hn].
    exists (S n). cbn [replicate run_world step]. rewrite Ht. cbn [exec]. rewrite Hn. done.
  - destruct (Hgo p (set_calls (World (<[k := v]> (w_cache w)) (w_docs w) (w_nums w) (w_calls w)) (<[t := (c, settle p)]> (w_calls w))) w t c eq_refl eq_refl IH Hl) as [n Hn].
    exists (S n). cbn [replicate run_world step]. rewrite Ht. cbn [exec]. rewrite Hn. done.
  - destruct (Hgo (g (found w h i o)) (set_calls w (<[t := (c, settle (g (found w h i o)))]> (w_calls w))) w t c eq_refl eq_refl (IH _) Hl) as [n Hn].
    exists (S n). cbn [replicate run_world step]. rewrite Ht. cbn [exec]. rewrite Hn. done.
  - destruct (Hgo (g (number w h)) (set_calls w (<[t := (c, settle (g (number w h)))]> (w_calls w))) w t c eq_refl eq_refl (IH _) Hl) as [n Hn].
    exists (S n). cbn [replicate run_world step]. rewrite Ht. cbn [exec]. rewrite Hn. done.
  - destruct (Hgo p (set_calls (World (w_cache w) (w_docs w ++ [d]) (w_nums w) (w_calls w)) (<[t := (c, settle p)]> (w_calls w))) w t c eq_refl eq_refl IH Hl) as [n Hn].
    exists (S n). cbn [replicate run_world step]. rewrite Ht. cbn [exec]. rewrite Hn. done.
Qed.
Lemma run_alone add w c : ∃ k,
  run_world add (Start c :: replicate k (Step (length (w_calls w)) Fine)) w =
  Some (World (run_prog (program parse add c) (w_cache w, w_docs w) (w_nums w)).2.1
              (run_prog (program parse add c) (w_cache w, w_docs w) (w_nums w)).2.2 (w_nums w)
              (w_calls w ++ [(c, Done (run_prog (program parse add c) (w_cache w, w_docs w) (w_nums w)).1)])).
Proof.
  destruct (run_steps add (program parse add c) (set_calls w (w_calls w ++ [(c, settle (program parse add c))])) (length (w_calls w)) c) as [k Hk].
  { cbn. by apply list_lookup_middle. }
  exists k. cbn [run_world step]. rewrite Hk. cbn [set_calls w_calls w_cache w_docs w_nums].
  rewrite <-(Nat.add_0_r (length (w_calls w))), insert_app_r. done.
Qed.
End alone.
