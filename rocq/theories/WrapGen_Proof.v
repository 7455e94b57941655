From Verif Require Export WrapGen_Spec.
From Coq Require Import Lia.
Set Default Proof Using "Type".

Lemma app_cancel_r (s t u : string) : s +:+ u = t +:+ u → s = t.
Proof.
  revert t. induction s as [|a s IH]; intros [|b t]; cbn; intros H.
  - done.
  - apply (f_equal String.length) in H. change (String b t +:+ u) with (String b (t +:+ u)) in H. cbn in H.
    change ("" +:+ u) with u in H. assert (∀ x y, String.length (x +:+ y) = String.length x + String.length y) as L.
    { intros x y. induction x as [|c x IHx]; [done|]. change (String c x +:+ y) with (String c (x +:+ y)). cbn. by rewrite IHx. }
    rewrite L in H. lia.
  - apply (f_equal String.length) in H. change (String a s +:+ u) with (String a (s +:+ u)) in H. cbn in H.
    change ("" +:+ u) with u in H. assert (∀ x y, String.length (x +:+ y) = String.length x + String.length y) as L.
    { intros x y. induction x as [|c x IHx]; [done|]. change (String c x +:+ y) with (String c (x +:+ y)). cbn. by rewrite IHx. }
    rewrite L in H. lia.
  - injection H as -> H. f_equal. by apply IH.
Qed.
(** the last character tells guards apart *)
Fixpoint last_char (s : string) : option ascii := match s with EmptyString => None | String c EmptyString => Some c | String _ r => last_char r end.
Lemma last_char_app s c t : last_char (s +:+ String c t) = last_char (String c t).
Proof.
  induction s as [|a s IH]; [done|]. change (String a s +:+ String c t) with (String a (s +:+ String c t)). rewrite <-IH.
  destruct s; done.
Qed.

Lemma overwrite_length old c : length (overwrite old c) = Nat.max (length old) (length c).
Proof. unfold overwrite. rewrite app_length, drop_length. lia. Qed.

(** ** Generation *)
Lemma gen_visited_mono ws : ∀ m x, x ∈ visited m → x ∈ visited (fold_left generate_funcs ws m).
Proof.
  induction ws as [|w ws IH]; intros m x H; cbn; [done|]. apply IH. unfold generate_funcs. case_bool_decide; [done|]. cbn. set_solver.
Qed.
(** if everything with the guard or the file of [w] has the file and content of [w], the file is right *)
Lemma gen_file ws w m : (∀ w', w' ∈ ws → guard_key w' = guard_key w → file w' = file w) → (∀ w', w' ∈ ws → file w' = file w → baked w' = baked w) →
  (guard_key w ∈ visited m → files m !! file w = Some (baked w)) → (w ∈ ws ∨ guard_key w ∈ visited m) →
  files (fold_left generate_funcs ws m) !! file w = Some (baked w).
Proof.
  revert m. induction ws as [|w' ws IH]; intros m G F V I; cbn.
  { destruct I as [I|I]; [by apply elem_of_nil in I|by apply V]. }
  assert (∀ w'', w'' ∈ ws → guard_key w'' = guard_key w → file w'' = file w) as G' by (intros; apply G; [by right|done]).
  assert (∀ w'', w'' ∈ ws → file w'' = file w → baked w'' = baked w) as F' by (intros; apply F; [by right|done]).
  unfold generate_funcs at 2. case_bool_decide as B.
  - apply IH; try done. destruct I as [I|I]; [|by right]. apply elem_of_cons in I as [->|I]; [by right|by left].
  - apply IH; try done.
    + cbn. intros X. apply elem_of_union in X as [X%elem_of_singleton|X].
      * rewrite <-(G w'); [|left|done]. rewrite lookup_insert. f_equal. apply F; [left|]. apply G; [left|done].
      * destruct (decide (file w' = file w)) as [E|E].
        -- rewrite E, lookup_insert. f_equal. apply F; [left|done].
        -- rewrite lookup_insert_ne by done. by apply V.
    + cbn. destruct I as [I|I]; [|right; set_solver]. apply elem_of_cons in I as [->|I]; [right; set_solver|by left].
Qed.
