From Verif Require Import UniqueId_Model UniqueId_Spec.
From stdpp Require Import list.
Set Default Proof Using "Type".
Open Scope Z_scope.

(** ** Numbers as digits *)
Definition num (l : list Z) : Z := foldl (λ a d, a * 16 + d) 0 l.
Definition digit (d : Z) : Prop := 0 ≤ d < 16.
Lemma pow_nat_S n : 16 ^ Z.of_nat (S n) = 16 * 16 ^ Z.of_nat n.
Proof. rewrite Nat2Z.inj_succ. apply Z.pow_succ_r. lia. Qed.
Lemma pow_pos n : 0 < 16 ^ Z.of_nat n. Proof. apply Z.pow_pos_nonneg; lia. Qed.
Lemma foldl_num l : ∀ a, foldl (λ a d, a * 16 + d) a l = a * 16 ^ Z.of_nat (length l) + num l.
Proof.
  unfold num. induction l as [|d l IH]; intros a; [simpl; lia|]. cbn [foldl length]. rewrite (IH (a * 16 + d)), (IH (0 * 16 + d)), pow_nat_S. lia.
Qed.
Lemma num_app a b : num (a ++ b) = num a * 16 ^ Z.of_nat (length b) + num b.
Proof. unfold num at 1. rewrite foldl_app. apply foldl_num. Qed.
Lemma num_1 d : num [d] = d.
Proof. unfold num. simpl. lia. Qed.
Lemma num_bound l : Forall digit l → 0 ≤ num l < 16 ^ Z.of_nat (length l).
Proof.
  induction l as [|d l IH] using rev_ind; intros H; [unfold num; simpl; lia|].
  apply Forall_app in H as [Hl Hd]. apply Forall_cons in Hd as [Hd _]. specialize (IH Hl). unfold digit in Hd.
  rewrite num_app, app_length, num_1. cbn [length]. replace (length l + 1)%nat with (S (length l)) by lia. rewrite (pow_nat_S (length l)).
  change (16 ^ Z.of_nat 1) with 16. lia.
Qed.
Lemma num_take j l : Forall digit l → num (take j l) = num l / 16 ^ Z.of_nat (length l - j).
Proof.
  intros H. rewrite <- (take_drop j l) at 2. rewrite num_app, drop_length.
  pose proof (num_bound (drop j l) (Forall_drop _ _ _ H)) as Hb. rewrite drop_length in Hb.
  rewrite Z.add_comm, Z.div_add by (pose proof (pow_pos (length l - j)); lia). by rewrite Z.div_small.
Qed.
Lemma digits_digit k : ∀ n, 0 ≤ n → Forall digit (digits k n).
Proof.
  induction k as [|k IH]; intros n Hn; simpl; (destruct (Z.ltb_spec n 16); [constructor; [unfold digit; lia|constructor]|]); [constructor|].
  apply Forall_app. split; [apply IH, Z.div_pos; lia|]. constructor; [|constructor]. unfold digit. pose proof (Z.mod_pos_bound n 16). lia.
Qed.
Lemma digits_num k : ∀ n, 0 ≤ n < 16 ^ Z.of_nat (S k) → num (digits k n) = n.
Proof.
  induction k as [|k IH]; intros n Hn; rewrite pow_nat_S in Hn; cbn [digits]; (destruct (Z.ltb_spec n 16); [unfold num; simpl; lia|]); [simpl in Hn; lia|].
  rewrite num_app, IH; [|split; [apply Z.div_pos; lia|apply Z.div_lt_upper_bound; lia]].
  unfold num. simpl. pose proof (Z.div_mod n 16). lia.
Qed.
Lemma digits_length k : ∀ n, 0 ≤ n < 16 ^ Z.of_nat (S k) →
  ∃ L, length (digits k n) = S L ∧ (L ≤ k)%nat ∧ n < 16 ^ Z.of_nat (S L) ∧ (L = 0%nat ∨ 16 ^ Z.of_nat L ≤ n).
Proof.
  induction k as [|k IH]; intros n Hn; rewrite pow_nat_S in Hn; cbn [digits]; (destruct (Z.ltb_spec n 16);
    [exists 0%nat; split; [done|]; split; [lia|]; split; [simpl; lia|by left]|]); [simpl in Hn; lia|].
  destruct (IH (n / 16)) as (L & HL & Hk & Hu & Hl); [split; [apply Z.div_pos; lia|apply Z.div_lt_upper_bound; lia]|].
  exists (S L). rewrite app_length, HL. split; [simpl; lia|]. split; [lia|].
  pose proof (Z.div_mod n 16). pose proof (Z.mod_pos_bound n 16). rewrite !pow_nat_S in *. split; [lia|]. right.
  destruct Hl as [->|Hl]; [|lia]. simpl. lia.
Qed.
Lemma value_digits l : ∀ acc, value acc (Digit <$> l) = Some (acc * 16 ^ Z.of_nat (length l) + num l).
Proof.
  induction l as [|d l IH]; intros acc; [unfold num; simpl; f_equal; lia|]. cbn [fmap list_fmap value length]. rewrite IH. f_equal.
  rewrite pow_nat_S. change (d :: l) with ([d] ++ l). rewrite num_app, num_1. lia.
Qed.
Lemma fmap_replicate_digit n (l : list Z) : replicate n (Digit 0) ++ (Digit <$> l) = Digit <$> (replicate n 0 ++ l).
Proof. by rewrite fmap_app, fmap_replicate. Qed.
Lemma num_zeros n l : num (replicate n 0 ++ l) = num l.
Proof.
  rewrite num_app. assert (num (replicate n 0) = 0) as ->; [|lia].
  induction n as [|n IH]; [done|]. unfold num in *. simpl. done.
Qed.
Definition fitted (w : nat) (x : Z) : list Z :=
  let l := digits 15 x in if bool_decide (w < length l)%nat then take w l else replicate (w - length l) 0 ++ l.
Lemma fit_fitted w x : 0 ≤ x → fit w (format x) = Digit <$> fitted w x.
Proof.
  intros Hx. unfold format, fit, fitted. destruct (Z.ltb_spec x 0); [lia|]. rewrite fmap_length.
  case_bool_decide; [by rewrite fmap_take|]. case_bool_decide; [apply fmap_replicate_digit|].
  replace (w - length (digits 15 x))%nat with 0%nat by lia. done.
Qed.
Lemma fitted_digit w x : 0 ≤ x → Forall digit (fitted w x).
Proof.
  intros Hx. unfold fitted. case_bool_decide; [by apply Forall_take, digits_digit|]. apply Forall_app. split; [|by apply digits_digit].
  apply Forall_replicate. unfold digit. lia.
Qed.
Lemma fitted_length w x : length (fitted w x) = w.
Proof. unfold fitted. case_bool_decide; [rewrite take_length; lia|]. rewrite app_length, replicate_length. lia. Qed.

Lemma fitted_era t : era t → num (fitted 10 t) = t / 16.
Proof.
  intros [H1 H2]. unfold fitted. destruct (digits_length 15 t) as (L & HL & Hk & Hu & Hl); [simpl; simpl in H1, H2; lia|].
  assert (L = 10%nat) as ->.
  { destruct (decide (L < 10)%nat) as [Hlt|?].
    - assert (16 ^ Z.of_nat (S L) ≤ 16 ^ 10) by (apply Z.pow_le_mono_r; lia). lia.
    - destruct (decide (10 < L)%nat); [|lia]. destruct Hl as [->|Hl]; [lia|].
      assert (16 ^ 11 ≤ 16 ^ Z.of_nat L) by (apply Z.pow_le_mono_r; lia). lia. }
  rewrite HL. rewrite bool_decide_true by lia. rewrite num_take by (apply digits_digit; simpl in H1; lia).
  rewrite digits_num by (simpl; simpl in H1, H2; lia). by rewrite HL.
Qed.
Lemma fitted_early t : early t → num (fitted 10 t) = t.
Proof.
  intros [H1 H2]. unfold fitted. destruct (digits_length 15 t) as (L & HL & Hk & Hu & Hl); [simpl; simpl in H2; lia|].
  assert (L < 10)%nat.
  { destruct (decide (10 ≤ L)%nat); [|lia]. destruct Hl as [->|Hl]; [lia|].
    assert (16 ^ 10 ≤ 16 ^ Z.of_nat L) by (apply Z.pow_le_mono_r; lia). lia. }
  rewrite bool_decide_false by lia. rewrite num_zeros. apply digits_num. simpl. simpl in H2. lia.
Qed.
Lemma fitted_first c : 0 ≤ c < 2 ^ 63 → first_digit c (num (fitted 1 c)).
Proof.
  intros Hc. split; [lia|]. unfold fitted. destruct (digits_length 15 c) as (L & HL & Hk & Hu & Hl); [simpl in *; lia|].
  assert (num (take 1 (digits 15 c)) = c / 16 ^ Z.of_nat L) as Ht.
  { rewrite num_take by (apply digits_digit; lia). rewrite digits_num by (simpl in *; lia). rewrite HL.
    by replace (S L - 1)%nat with L by lia. }
  assert (num (if bool_decide (1 < length (digits 15 c))%nat then take 1 (digits 15 c) else
    replicate (1 - length (digits 15 c)) 0 ++ digits 15 c) = c / 16 ^ Z.of_nat L) as ->.
  { case_bool_decide as Hb; [done|]. rewrite HL in Hb |- *. assert (L = 0%nat) as -> by lia. cbn [Nat.sub replicate app].
    rewrite digits_num by (simpl in *; lia). change (16 ^ Z.of_nat 0) with 1. by rewrite Z.div_1_r. }
  pose proof (pow_pos L). pose proof (Z.div_mod c (16 ^ Z.of_nat L)) as Hd. pose proof (Z.mod_pos_bound c (16 ^ Z.of_nat L)).
  rewrite pow_nat_S in Hu. set (q := c / 16 ^ Z.of_nat L) in *. set (p := 16 ^ Z.of_nat L) in *.
  assert (0 ≤ q) by (apply Z.div_pos; lia). assert (q < 16) by nia.
  destruct (decide (q = 0)) as [Hq|Hq].
  - left. rewrite Hq in *. destruct Hl as [->|Hl]; [|lia]. subst p. simpl in *. lia.
  - right. split; [lia|]. exists (Z.of_nat L). split; [lia|]. subst p. lia.
Qed.

Lemma first_digit_unique n d e : first_digit n d → first_digit n e → d = e.
Proof.
  intros [Hn [[-> ->]|(Hd & k & Hk & H1 & H2)]] [_ [[Hz ->]|(He & k' & Hk' & H1' & H2')]].
  - done.
  - assert (0 < 16 ^ k') by (apply Z.pow_pos_nonneg; lia). nia.
  - assert (0 < 16 ^ k) by (apply Z.pow_pos_nonneg; lia). nia.
  - assert (0 < 16 ^ k) by (apply Z.pow_pos_nonneg; lia). assert (0 < 16 ^ k') by (apply Z.pow_pos_nonneg; lia).
    assert (k = k') as ->; [|nia].
    assert (∀ a b x y, 0 ≤ a → 0 ≤ b → 1 ≤ x < 16 → 1 ≤ y < 16 → x * 16 ^ a ≤ n < (x + 1) * 16 ^ a → y * 16 ^ b ≤ n < (y + 1) * 16 ^ b → ¬ a < b) as Hlt.
    { intros a b x y Ha Hb Hx Hy Hxn Hyn Hab. assert (16 ^ b = 16 ^ a * 16 ^ (b - a)) as Hp by (rewrite <- Z.pow_add_r by lia; f_equal; lia).
      assert (16 ^ 1 ≤ 16 ^ (b - a)) by (apply Z.pow_le_mono_r; lia). assert (0 < 16 ^ a) by (apply Z.pow_pos_nonneg; lia).
      assert (16 * 16 ^ a ≤ 16 ^ b) by nia. nia. }
    pose proof (Hlt k k' d e Hk Hk' Hd He ltac:(lia) ltac:(lia)). pose proof (Hlt k' k e d Hk' Hk He Hd ltac:(lia) ltac:(lia)). lia.
Qed.

(** ** One id *)
Lemma num_cons_list m : 0 ≤ m → format m = Digit <$> digits 15 m.
Proof. intros H. unfold format. destruct (Z.ltb_spec m 0); [lia|done]. Qed.
Definition id_of (m t c : Z) : Z := m * 16 ^ 11 + num (fitted 10 t) * 16 + num (fitted 1 c).
Lemma fitted_bound w x : 0 ≤ x → 0 ≤ num (fitted w x) < 16 ^ Z.of_nat w.
Proof. intros Hx. pose proof (num_bound _ (fitted_digit w x Hx)) as H. by rewrite fitted_length in H. Qed.
Lemma id_bound m t c : machine m → 0 ≤ t → 0 ≤ c → 0 ≤ id_of m t c < 2 ^ 60.
Proof.
  intros Hm Ht Hc. unfold id_of. pose proof (fitted_bound 10 t Ht) as H1. pose proof (fitted_bound 1 c Hc) as H2.
  unfold machine in Hm. simpl in *. lia.
Qed.
Lemma new_id_eq m g t : machine m → 0 ≤ t → 0 ≤ (get_counter g t).1 →
  (new_id m g t).1 = Some (id_of m t (get_counter g t).1).
Proof.
  intros Hm Ht Hc. unfold new_id. destruct (get_counter g t) as [c g'] eqn:E. simpl in Hc |- *.
  pose proof (id_bound m t c Hm Ht Hc) as Hb. unfold machine in Hm.
  rewrite !fit_fitted by lia. rewrite num_cons_list by lia. rewrite <- !fmap_app. unfold parse. rewrite value_digits.
  rewrite !num_app, !app_length, !fitted_length. rewrite digits_num by (simpl in *; lia).
  replace (0 * _ + _) with (id_of m t c) by (unfold id_of; simpl; lia).
  destruct (Z.ltb_spec (id_of m t c) (2 ^ 63)); [|lia]. simpl. f_equal.
  change (2 ^ 63 - 1) with (Z.ones 63). rewrite Z.land_ones by lia. apply Z.mod_small. lia.
Qed.

(** ** Counters *)
Definition gen_at (ts : list Z) (i : nat) : gen := foldl (λ g t, (get_counter g t).2) new_gen (take i ts).
Lemma ids_from_lookup m ts : ∀ g i t, ts !! i = Some t →
  ids_from m g ts !! i = Some (new_id m (foldl (λ g t, (get_counter g t).2) g (take i ts)) t).1.
Proof.
  induction ts as [|t0 ts IH]; intros g i t Hi; [done|]. cbn [ids_from].
  assert ((new_id m g t0).2 = (get_counter g t0).2) as Hg by (unfold new_id; by destruct (get_counter g t0)).
  destruct (new_id m g t0) as [x g'] eqn:E. simpl in Hg. subst g'. destruct i as [|i].
  - injection Hi as <-. simpl. by rewrite E.
  - simpl in Hi |- *. by apply IH.
Qed.
Lemma gen_at_S ts i t : ts !! i = Some t → gen_at ts (S i) = (get_counter (gen_at ts i) t).2.
Proof. intros Hi. unfold gen_at. rewrite (take_S_r _ _ _ Hi), foldl_app. done. Qed.
Lemma gen_current ts i t : ts !! i = Some t → g_current (gen_at ts (S i)) = t.
Proof.
  intros Hi. rewrite (gen_at_S _ _ _ Hi). unfold get_counter. by destruct (Z.eqb_spec (g_current (gen_at ts i)) t).
Qed.
Lemma counter_spec ts n : ∀ i t, ts !! i = Some t → repeats ts i n →
  (get_counter (gen_at ts i) t).1 = Z.of_nat n ∧ gen_at ts (S i) = Gen (Z.of_nat n + 1) t.
Proof.
  induction n as [|n IH]; intros i t Hi (Hn & Heq & Hne); rewrite (gen_at_S _ _ _ Hi).
  - destruct i as [|i].
    + change (gen_at ts 0) with new_gen. unfold get_counter. cbn [new_gen g_current g_counter].
      by destruct (Z.eqb_spec (-1) t) as [<-|].
    + replace (S i - 0 - 1)%nat with i in Hne by lia. specialize (Hne ltac:(lia)).
      destruct (lookup_lt_is_Some_2 ts i) as [t' Ht']; [apply lookup_lt_Some in Hi; lia|].
      unfold get_counter. rewrite (gen_current _ _ _ Ht'). destruct (Z.eqb_spec t' t) as [->|]; [congruence|done].
  - destruct i as [|i]; [lia|].
    assert (ts !! i = Some t) as Hi' by (rewrite <- Hi; apply Heq; lia).
    destruct (IH i t Hi') as [_ Hg].
    + split; [lia|]. split.
      * intros k Hk. rewrite Hi', <- Hi. apply Heq. lia.
      * intros Hlt. rewrite Hi', <- Hi. replace (i - n - 1)%nat with (S i - S n - 1)%nat by lia. apply Hne. lia.
    + unfold get_counter. rewrite Hg. cbn [g_current g_counter]. rewrite Z.eqb_refl. cbn [fst snd]. split; [lia|f_equal; lia].
Qed.
Lemma repeats_exists ts i t : ts !! i = Some t → ∃ n, repeats ts i n.
Proof.
  revert t. induction i as [|i IH]; intros t Hi.
  - exists 0%nat. split; [lia|]. split; [|lia]. intros k Hk. by assert (k = 0%nat) as -> by lia.
  - destruct (lookup_lt_is_Some_2 ts i) as [t' Ht']; [apply lookup_lt_Some in Hi; lia|].
    destruct (decide (t' = t)) as [->|Hne].
    + destruct (IH t Ht') as (n & Hn & Heq & Hne). exists (S n). split; [lia|]. rewrite Hi, <- Ht'. split.
      * intros k Hk. destruct (decide (k = S i)) as [->|]; [congruence|]. apply Heq. lia.
      * intros Hlt. replace (S i - S n - 1)%nat with (i - n - 1)%nat by lia. apply Hne. lia.
    + exists 0%nat. split; [lia|]. split; [intros k Hk; by assert (k = S i) as -> by lia|].
      intros _. replace (S i - 0 - 1)%nat with i by lia. congruence.
Qed.

(** ** Ids *)
Lemma gets_id m ts i t n x : machine m → 0 ≤ t → gets m ts i t n x → x = id_of m t (Z.of_nat n).
Proof.
  intros Hm Ht (Hi & Hr & Hx). unfold ids in Hx. rewrite (ids_from_lookup _ _ _ _ _ Hi) in Hx. injection Hx as Hx.
  destruct (counter_spec _ _ _ _ Hi Hr) as [Hc _]. fold (gen_at ts i) in Hx. rewrite new_id_eq in Hx; [|done|done|rewrite Hc; lia].
  rewrite Hc in Hx. by injection Hx.
Qed.
Lemma gets_exists m ts i t : machine m → ts !! i = Some t → 0 ≤ t → ∃ n x, gets m ts i t n x ∧ 0 ≤ x < 2 ^ 60.
Proof.
  intros Hm Hi Ht. destruct (repeats_exists _ _ _ Hi) as [n Hr]. destruct (counter_spec _ _ _ _ Hi Hr) as [Hc _].
  exists n, (id_of m t (Z.of_nat n)). split; [|apply id_bound; lia || done]. split; [done|]. split; [done|].
  unfold ids. rewrite (ids_from_lookup _ _ _ _ _ Hi). fold (gen_at ts i). rewrite new_id_eq; [by rewrite Hc|done|done|rewrite Hc; lia].
Qed.
Lemma id_of_eq m m' t t' c c' : 0 ≤ t → 0 ≤ t' → 0 ≤ c → 0 ≤ c' →
  id_of m t c = id_of m' t' c' ↔
  m = m' ∧ num (fitted 10 t) = num (fitted 10 t') ∧ num (fitted 1 c) = num (fitted 1 c').
Proof.
  intros Ht Ht' Hc Hc'. unfold id_of. pose proof (fitted_bound 10 t Ht) as H1. pose proof (fitted_bound 10 t' Ht') as H2.
  pose proof (fitted_bound 1 c Hc) as H3. pose proof (fitted_bound 1 c' Hc') as H4. simpl in *. lia.
Qed.
Lemma fitted_first_eq n n' : 0 ≤ n < 2 ^ 63 → 0 ≤ n' < 2 ^ 63 →
  num (fitted 1 n) = num (fitted 1 n') ↔ ∃ d, first_digit n d ∧ first_digit n' d.
Proof.
  intros Hn Hn'. pose proof (fitted_first n Hn) as H. pose proof (fitted_first n' Hn') as H'. split.
  - intros E. exists (num (fitted 1 n)). split; [done|]. by rewrite E.
  - intros (d & Hd & Hd'). by rewrite (first_digit_unique _ _ _ H Hd), (first_digit_unique _ _ _ H' Hd').
Qed.
Lemma gets_lt m ts i t n x : gets m ts i t n x → Z.of_nat (length ts) < 2 ^ 63 → 0 ≤ Z.of_nat n < 2 ^ 63.
Proof. intros (Hi%lookup_lt_Some & (Hn & _) & _) Hl. lia. Qed.

(** ** Machine ids *)
Lemma machine_id_bound l : machine (machine_id l).
Proof.
  unfold machine. induction l as [|[up addr] l IH]; [simpl; lia|]. cbn [machine_id n_addr n_up]. destruct addr as [|b addr]; [done|].
  destruct (up && negb (Z.land b 2 =? 2)); [|done]. apply Z.mod_pos_bound. lia.
Qed.
Lemma land_2 b : (Z.land b 2 =? 2) = Z.testbit b 1.
Proof.
  destruct (Z.eqb_spec (Z.land b 2) 2) as [H|H].
  - assert (Z.testbit (Z.land b 2) 1 = true) as Ht by (by rewrite H). rewrite Z.land_spec in Ht. by apply andb_true_iff in Ht as [-> _].
  - destruct (Z.testbit b 1) eqn:E; [|done]. exfalso. apply H. apply Z.bits_inj'. intros n Hn. rewrite Z.land_spec.
    destruct (decide (n = 1)) as [->|Hne]; [by rewrite E|]. change 2 with (2 ^ 1). rewrite Z.pow2_bits_eqb by lia.
    destruct (Z.eqb_spec 1 n); [lia|]. apply andb_false_r.
Qed.
Definition skipped (i : netif) : Prop := n_up i = false ∨ n_addr i = [] ∨ local_address i.
Lemma machine_id_skip l l' : Forall skipped l → machine_id (l ++ l') = machine_id l'.
Proof.
  induction l as [|[up addr] l IH]; intros H; [done|]. apply Forall_cons in H as [Hi Hl]. cbn [app machine_id n_addr n_up].
  destruct addr as [|b addr]; [auto|]. destruct (up && negb (Z.land b 2 =? 2)) eqn:E; [|auto]. exfalso.
  apply andb_true_iff in E as [-> E]. rewrite land_2 in E. destruct Hi as [?|[?|Hi]]; [done|done|]. simpl in Hi. by rewrite Hi in E.
Qed.
Lemma machine_id_mac a b c d e f l : address [a; b; c; d; e; f] → Z.testbit a 1 = false →
  machine_id (NetIf true [a; b; c; d; e; f] :: l) = e * 256 + f.
Proof.
  intros Ha Ht. unfold address in Ha. rewrite !Forall_cons in Ha. destruct Ha as (? & ? & ? & ? & ? & ? & _).
  cbn [machine_id n_addr n_up]. rewrite land_2, Ht. cbn [andb negb take foldl]. rewrite !Z.mul_0_l, !Z.add_0_l.
  assert (∀ x y, 0 ≤ x < 2 ^ 56 → 0 ≤ y < 256 → (x * 256 + y) `mod` 2 ^ 64 = x * 256 + y) as Hm by (intros; apply Z.mod_small; lia).
  rewrite (Z.mod_small a) by lia. rewrite (Hm a b) by lia. rewrite (Hm (a * 256 + b) c) by lia.
  rewrite (Hm ((a * 256 + b) * 256 + c) d) by lia. rewrite (Hm (((a * 256 + b) * 256 + c) * 256 + d) e) by lia.
  rewrite (Hm ((((a * 256 + b) * 256 + c) * 256 + d) * 256 + e) f) by lia.
  replace ((((((a * 256 + b) * 256 + c) * 256 + d) * 256 + e) * 256 + f)) with ((e * 256 + f) + (((a * 256 + b) * 256 + c) * 256 + d) * 2 ^ 16) by lia.
  rewrite Z.mod_add by lia. apply Z.mod_small. lia.
Qed.

(** ** Times before 1970 *)
Lemma value_minus s : ∀ acc, Minus ∈ s → value acc s = None.
Proof.
  induction s as [|[d|] s IH]; intros acc H; [by apply elem_of_nil in H| |done]. simpl. apply IH. by apply elem_of_cons in H as [[=]|H].
Qed.
Lemma new_id_past m g t : t < 0 → (new_id m g t).1 = None.
Proof.
  intros Ht. unfold new_id. destruct (get_counter g t) as [c g']. cbn [fst]. unfold parse. rewrite value_minus; [done|].
  apply elem_of_app. right. apply elem_of_app. left. unfold format. destruct (Z.ltb_spec t 0); [|lia]. unfold fit.
  case_bool_decide; [by left|]. case_bool_decide; [|by left]. apply elem_of_app. right. by left.
Qed.

(** ** Pigeons *)
Lemma pigeons (f : nat → Z) (k : nat) (l : list nat) : NoDup l → (∀ i, i ∈ l → 0 ≤ f i < Z.of_nat k) → (k < length l)%nat →
  ∃ i j, i ∈ l ∧ j ∈ l ∧ i ≠ j ∧ f i = f j.
Proof.
  revert l. induction k as [|k IH]; intros l Hnd Hf Hlen.
  - destruct l as [|i l]; [simpl in Hlen; lia|]. specialize (Hf i ltac:(by left)). lia.
  - destruct (filter (λ i, f i = Z.of_nat k) l) as [|i [|j l']] eqn:E.
    + apply IH; [done| |lia]. intros i Hi. specialize (Hf i Hi). assert (f i ≠ Z.of_nat k); [|lia]. intros Hk.
      assert (i ∈ filter (λ i, f i = Z.of_nat k) l) as H by (by apply elem_of_list_filter). rewrite E in H. by apply elem_of_nil in H.
    + assert (Permutation l (filter (λ i, f i = Z.of_nat k) l ++ filter (λ i, f i ≠ Z.of_nat k) l)) as Hp.
      { clear. induction l as [|a l IHl]; [done|]. destruct (decide (f a = Z.of_nat k)).
        - rewrite filter_cons_True by done. rewrite (filter_cons_False (λ i, f i ≠ Z.of_nat k)) by (by intros H). simpl. by apply Permutation_skip.
        - rewrite filter_cons_False by done. rewrite (filter_cons_True (λ i, f i ≠ Z.of_nat k)) by done. by rewrite <- Permutation_middle, <- IHl. }
      rewrite E in Hp. apply Permutation_length in Hp as Hl. simpl in Hl.
      destruct (IH (filter (λ i, f i ≠ Z.of_nat k) l)) as (x & y & Hx & Hy & H1 & H2).
      * by apply NoDup_filter.
      * intros x [Hne Hx]%elem_of_list_filter. specialize (Hf x Hx). lia.
      * lia.
      * apply elem_of_list_filter in Hx as [_ ?], Hy as [_ ?]. eauto 10.
    + assert (NoDup (i :: j :: l')) as Hn by (rewrite <- E; by apply NoDup_filter).
      assert (∀ x, x ∈ i :: j :: l' → f x = Z.of_nat k ∧ x ∈ l) as Hin by (intros x Hx; rewrite <- E in Hx; by apply elem_of_list_filter in Hx).
      destruct (Hin i) as [Hfi Hi]; [by left|]. destruct (Hin j) as [Hfj Hj]; [right; by left|].
      exists i, j. split; [done|]. split; [done|]. split; [|congruence]. intros ->. apply NoDup_cons in Hn as [Hn _]. apply Hn. by left.
Qed.
Lemma window_pigeons m ts (l : list nat) w : machine m → Z.of_nat (length ts) < 2 ^ 63 → NoDup l → (16 < length l)%nat →
  (∀ i, i ∈ l → ∃ t, ts !! i = Some t ∧ era t ∧ t / 16 = w) →
  ∃ i j x, i ∈ l ∧ j ∈ l ∧ i ≠ j ∧ ids m ts !! i = Some (Some x) ∧ ids m ts !! j = Some (Some x).
Proof.
  intros Hm Hlen Hnd Hl Hin. set (f := λ i : nat, match ids m ts !! i with Some (Some x) => x `mod` 16 | _ => 0 end).
  destruct (pigeons f 16 l) as (i & j & Hi & Hj & Hne & Hf); [done| |done|].
  { intros i Hi. unfold f. destruct (ids m ts !! i) as [[x|]|]; [|lia|lia]. pose proof (Z.mod_pos_bound x 16). lia. }
  destruct (Hin i Hi) as (t & Ht & He & Hw). destruct (Hin j Hj) as (t' & Ht' & He' & Hw').
  assert (0 ≤ t ∧ 0 ≤ t') as [H0 H0'] by (unfold era in He, He'; simpl in *; lia).
  destruct (gets_exists m ts i t Hm Ht H0) as (n & x & Hg & _). destruct (gets_exists m ts j t' Hm Ht' H0') as (n' & x' & Hg' & _).
  pose proof (gets_id _ _ _ _ _ _ Hm H0 Hg) as Ex. pose proof (gets_id _ _ _ _ _ _ Hm H0' Hg') as Ex'.
  destruct Hg as (_ & _ & Hx). destruct Hg' as (_ & _ & Hx'). exists i, j, x. split; [done|]. split; [done|]. split; [done|]. split; [done|].
  rewrite Hx'. do 2 f_equal. unfold f in Hf. rewrite Hx, Hx' in Hf. subst x x'. unfold id_of in *.
  rewrite (fitted_era t He), (fitted_era t' He'), Hw, Hw' in *.
  pose proof (fitted_bound 1 (Z.of_nat n) ltac:(lia)). pose proof (fitted_bound 1 (Z.of_nat n') ltac:(lia)).
  change (16 ^ Z.of_nat 1) with 16 in *.
  assert (∀ c, 0 ≤ c < 16 → (m * 16 ^ 11 + w * 16 + c) `mod` 16 = c) as Hmod.
  { intros c Hc. replace (m * 16 ^ 11 + w * 16 + c) with (c + (m * 16 ^ 10 + w) * 16) by lia. rewrite Z.mod_add by lia. by apply Z.mod_small. }
  rewrite !Hmod in Hf by lia. lia.
Qed.
