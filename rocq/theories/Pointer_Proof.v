From Verif Require Import Pointer_Model Pointer_Spec Wiring_Proof.

Lemma slen_app (a b : string) : String.length (a +:+ b) = String.length a + String.length b.
Proof. induction a; [done|]. simpl. f_equal. exact IHa. Qed.
Lemma app_inj_r (a b c : string) : (a +:+ c = b +:+ c)%string → a = b.
Proof.
  revert b. induction a as [|x a IH]; intros [|y b] H; try done.
  - exfalso. apply (f_equal String.length) in H. rewrite !slen_app in H. simpl in H. lia.
  - exfalso. apply (f_equal String.length) in H. rewrite !slen_app in H. simpl in H. lia.
  - injection H as -> H. by rewrite (IH b).
Qed.
(** The last character of a string. *)
Fixpoint slast (d : Ascii.ascii) (s : string) : Ascii.ascii :=
  match s with EmptyString => d | String c s => slast c s end.
Lemma slast_app d a c b : slast d (a +:+ String c b) = slast c b.
Proof. revert d. induction a; intros d; simpl; [done|]. apply IHa. Qed.
Lemma src_ne_next a b : (a +:+ ".src" ≠ b +:+ ".ptr.src.next")%string.
Proof. intros H. apply (f_equal (slast Ascii.zero)) in H. by rewrite !slast_app in H. Qed.
Lemma own_nodup name ms : NoDup ms → NoDup (own_names name ms).
Proof.
  intros H. unfold own_names. constructor.
  - rewrite elem_of_list_fmap. intros (m & E & _). by apply src_ne_next in E.
  - apply (NoDup_fmap_2_strong _ ms); [|done]. intros x y _ _ E. by apply app_inj_r in E.
Qed.
Lemma own_snoc name ms m : own_names name (ms ++ [m]) = own_names name ms ++ [(m +:+ ".ptr.src.next")%string].
Proof. unfold own_names. by rewrite fmap_app. Qed.

Lemma alias_at (s : wspec) a p : get_alias (step s (OAlias a p)) a = Some p.
Proof. unfold get_alias. simpl. by rewrite lookup_insert. Qed.
Lemma alias_frame (s : wspec) o n : op_name o ≠ n → get_alias (step s o) n = get_alias s n.
Proof. intros H. unfold get_alias. by apply step_aliases_ne. Qed.

(** Each own name leads to the next target. *)
Definition links (s : wspec) (ns ts : list string) : Prop := Forall2 (λ n t, get_alias s n = Some t) ns ts.
Lemma links_frame s o ns ts : op_name o ∉ ns → links s ns ts → links (step s o) ns ts.
Proof.
  intros Hn H. unfold links in *. induction H as [|n t ns ts H1 H IH]; constructor.
  - rewrite alias_frame; [done|]. intros E. apply Hn. rewrite E. left.
  - apply IH. intros E. apply Hn. by right.
Qed.
Lemma links_end s ns n ts t t' : n ∉ ns → links s (ns ++ [n]) (ts ++ [t]) → links (step s (OAlias n t')) (ns ++ [n]) (ts ++ [t']).
Proof.
  intros Hn H. apply Forall2_app_inv in H as [H _].
  - apply Forall2_app; [by apply links_frame|]. constructor; [apply alias_at|constructor].
  - pose proof (Forall2_length _ _ _ H) as E. rewrite !app_length in E. simpl in E. lia.
Qed.

Record inv (name d0 : string) (st : state) (ms ds ifs : list string) : Prop := {
  i_smods : p_smods (pt st) = ms;
  i_sret : sret st = (λ m, (m, m +:+ ".ptr.src.next")%string) <$> ms;
  i_tail : ∃ ns, own_names name ms = ns ++ [p_tail (pt st)];
  i_links : links (ws st) (own_names name ms) (ms ++ [p_iface (pt st)]);
  i_iface : p_iface (pt st) = List.last ifs d0;
  i_dmods : p_dmods (pt st) = rev ds ++ [d0];
  i_dhead : p_dhead (pt st) = List.last ds d0;
  i_dret : dret st = zip ds (d0 :: ds) }.

Lemma snoc_last {A} (l : list A) x d : List.last (l ++ [x]) d = x.
Proof. by rewrite last_last. Qed.
Lemma zip_snoc {A} (l : list A) d x : zip (l ++ [x]) (d :: l ++ [x]) = zip l (d :: l) ++ [(x, List.last l d)].
Proof.
  revert d. induction l as [|y l IH]; intros d; simpl; [done|]. f_equal. rewrite IH. f_equal. f_equal. f_equal.
  clear. revert y. induction l as [|z l IH]; intros y; simpl; [done|]. destruct l; [done|]. apply (IH y).
Qed.

Lemma inv_ext name d0 st1 st2 ms ds ifs :
  inv name d0 st1 ms ds ifs → pt st2 = pt st1 → sret st2 = sret st1 → dret st2 = dret st1 →
  (links (ws st1) (own_names name ms) (ms ++ [p_iface (pt st1)]) → links (ws st2) (own_names name ms) (ms ++ [p_iface (pt st1)])) →
  inv name d0 st2 ms ds ifs.
Proof. intros [] Ep Es Ed Hl. constructor; rewrite ?Ep, ?Es, ?Ed; auto. Qed.

Lemma inv_src name d0 st ms ds ifs m : NoDup (ms ++ [m]) → inv name d0 st ms ds ifs → inv name d0 (add_src st m) (ms ++ [m]) ds ifs.
Proof.
  intros Hnd [H1 H2 [ns H3] H4 H5 H6 H7 H8]. pose proof (own_nodup name _ Hnd) as Ho. rewrite own_snoc in Ho.
  apply NoDup_app in Ho as (Ho & Hn & _). constructor; simpl; auto.
  - by rewrite H1.
  - rewrite H2, fmap_app. done.
  - rewrite own_snoc. eauto.
  - rewrite own_snoc. apply Forall2_app.
    + apply (links_frame _ (OAlias _ _)). { simpl. intros E. apply (Hn _ E). by left. }
      rewrite H3 in *. apply links_end with (t := p_iface (pt st)); [|done].
      apply NoDup_app in Ho as (_ & Ho & _). intros E. apply (Ho _ E). by left.
    + constructor; [apply (alias_at _ _ (p_iface (pt st)))|constructor].
Qed.
Lemma inv_dst name d0 st ms ds ifs m b : NoDup ms → inv name d0 st ms ds ifs →
  inv name d0 (add_dst st m b) ms (ds ++ [m]) (if b then ifs ++ [m] else ifs).
Proof.
  intros Hnd [H1 H2 [ns H3] H4 H5 H6 H7 H8]. pose proof (own_nodup name _ Hnd) as Ho.
  constructor; simpl; eauto.
  - destruct b; [|done]. rewrite H3 in *. eapply links_end; [|done].
    apply NoDup_app in Ho as (_ & Ho & _). intros E. apply (Ho _ E). by left.
  - destruct b; [|done]. by rewrite last_last.
  - rewrite rev_app_distr. simpl. by rewrite H6.
  - by rewrite last_last.
  - rewrite H8, H7, zip_snoc. done.
Qed.
Lemma inv_addr name d0 st ms ds ifs a : NoDup ms → inv name d0 st ms ds ifs →
  inv name d0 (add_addr st a) ms (ds ++ match get_address (ws st) a with Some t => [t] | None => [] end)
      (match get_address (ws st) a with Some t => ifs ++ [t; a] | None => ifs end).
Proof.
  intros Hnd Hi. unfold add_addr. destruct (get_address (ws st) a) as [t|]; [|by rewrite app_nil_r].
  pose proof (inv_dst _ _ _ _ _ _ t true Hnd Hi) as Hi2. revert Hi2. generalize (add_dst st t true). intros st2 Hi2.
  change (ifs ++ [t; a]) with (ifs ++ [t] ++ [a]). rewrite app_assoc.
  destruct Hi2 as [H1 H2 [ns H3] H4 H5 H6 H7 H8]. pose proof (own_nodup name _ Hnd) as Ho.
  constructor; simpl; eauto.
  - rewrite H3 in *. eapply links_end; [|done].
    apply NoDup_app in Ho as (_ & Ho & _). intros E. apply (Ho _ E). by left.
  - by rewrite last_last.
Qed.
Lemma inv_add_to name d0 st ms ds ifs ns ty : NoDup ms → (name +:+ "." +:+ ns)%string ∉ own_names name ms → ns ∉ own_names name ms →
  inv name d0 st ms ds ifs → inv name d0 (add_to st name ns ty) ms (ds ++ [(name +:+ "." +:+ ns)%string]) ifs.
Proof.
  intros Hnd Hn1 Hn2 Hi. pose proof (inv_dst _ _ _ _ _ _ (name +:+ "." +:+ ns)%string false Hnd Hi) as Hi2.
  eapply inv_ext; [exact Hi2|done..|]. intros Hl. unfold add_to, do_ops. cbn [ws fold_left].
  apply links_frame; [done|]. by apply links_frame.
Qed.

Lemma last_skip {A} (ifs : list A) t a d : List.last (ifs ++ [t; a]) d = List.last (ifs ++ [a]) d.
Proof. change [t; a] with ([t] ++ [a]). rewrite app_assoc, !last_last. done. Qed.

Lemma inv_step name d0 st ms ds ifs o :
  NoDup (ms ++ src_added [o]) → (∀ n, n ∈ touches name o → n ∉ own_names name ms) → inv name d0 st ms ds ifs →
  inv name d0 (pstep name st o) (ms ++ src_added [o]) (ds ++ dst_added name st [o]) (ifs ++ ifaces name st [o]).
Proof.
  intros Hnd Hn Hi. destruct o as [m|m b|a|ns ty|o]; cbn [src_added omap list_omap] in *; unfold dst_added, ifaces; simpl; rewrite ?app_nil_r in *.
  - by apply inv_src.
  - pose proof (inv_dst _ _ _ _ _ _ m b Hnd Hi) as H. destruct b; by rewrite ?app_nil_r.
  - pose proof (inv_addr _ _ _ _ _ _ a Hnd Hi) as H. destruct (get_address (ws st) a) as [t|]; simpl in *; rewrite ?app_nil_r in *; [|done].
    destruct H as [H1 H2 H3 H4 H5 H6 H7 H8]. constructor; eauto. by rewrite <- (last_skip _ t).
  - simpl in Hn. apply inv_add_to; [done|apply Hn; set_solver|apply Hn; set_solver|done].
  - eapply inv_ext; [exact Hi|done..|]. simpl. intros Hl. apply links_frame; [|done]. apply Hn. simpl. set_solver.
Qed.

Lemma src_added_app os1 os2 : src_added (os1 ++ os2) = src_added os1 ++ src_added os2.
Proof. apply omap_app. Qed.
Lemma in_specs_cons name st o os : in_specs name st (o :: os) = in_specs name st [o] ++ in_specs name (pstep name st o) os.
Proof. done. Qed.

Lemma inv_run name d0 os : ∀ st ms ds ifs,
  NoDup (ms ++ src_added os) → (∀ o n, o ∈ os → n ∈ touches name o → n ∉ own_names name (ms ++ src_added os)) →
  inv name d0 st ms ds ifs →
  inv name d0 (prun name st os) (ms ++ src_added os) (ds ++ dst_added name st os) (ifs ++ ifaces name st os).
Proof.
  induction os as [|o os IH]; intros st ms ds ifs Hnd Hn Hi.
  - cbn. by rewrite !app_nil_r.
  - change (o :: os) with ([o] ++ os) in Hnd, Hn |- *. rewrite src_added_app in *. rewrite app_assoc in *.
    cbn [prun foldl app]. change (foldl (pstep name) (pstep name st o) os) with (prun name (pstep name st o) os).
    assert (dst_added name st (o :: os) = dst_added name st [o] ++ dst_added name (pstep name st o) os) as ->.
    { unfold dst_added. rewrite in_specs_cons. apply omap_app. }
    assert (ifaces name st (o :: os) = ifaces name st [o] ++ ifaces name (pstep name st o) os) as ->.
    { unfold ifaces. rewrite in_specs_cons. apply omap_app. }
    rewrite !app_assoc. apply IH; [done| |].
    + intros x n Hx. apply Hn. by right.
    + apply inv_step; [by apply NoDup_app in Hnd as [? _]| |done].
      intros n Ht Ho. eapply (Hn o); [by left|done|]. unfold own_names in *. rewrite !elem_of_cons, !elem_of_list_fmap in *.
      destruct Ho as [?|(y & ? & ?)]; [by left|right]. exists y. split; [done|]. set_solver.
Qed.

(** ** Making the pointer *)
Lemma own_nil name : own_names name [] = [(name +:+ ".src")%string].
Proof. done. Qed.
Lemma name_ne_src (name : string) : name ≠ (name +:+ ".src")%string.
Proof. intros H. apply (f_equal String.length) in H. rewrite slen_app in H. simpl in H. lia. Qed.

Lemma inv_create fuel s name dst ty uniq : inv name (original_dst name dst uniq) (create_pointer fuel s name dst ty uniq) [] [] [].
Proof.
  unfold create_pointer, original_dst.
  destruct uniq as [vis|]; [destruct (require_uniqueness _ _ _) as [s1 e]|]; cbn [do_ops fold_left];
  (constructor; cbn [pt p_smods sret p_tail p_iface p_dmods p_dhead dret ws]; try done; [by exists []|]);
  rewrite own_nil; (constructor; [|constructor]);
  (rewrite alias_frame by (simpl; apply name_ne_src)); (rewrite alias_frame by (simpl; apply name_ne_src)); apply alias_at.
Qed.

Lemma path_of_links s rets ms : ∀ n e, links s (n :: ((λ m, m +:+ ".ptr.src.next")%string <$> ms)) (ms ++ [e]) →
  (∀ m, m ∈ ms → (m, m +:+ ".ptr.src.next")%string ∈ rets) → client_path s rets n ms e.
Proof.
  induction ms as [|m ms IH]; intros n e Hl Hr; simpl in *.
  - inversion Hl; subst. by constructor.
  - inversion Hl as [|???? H1 H2]; subst. eapply cp_mod; [done|apply Hr; by left|]. apply IH; [done|]. intros. apply Hr. by right.
Qed.
Lemma path_of_zip d0 ds : server_path (zip ds (d0 :: ds)) (List.last ds d0) (rev ds) d0.
Proof.
  induction ds as [|x ds IH] using rev_ind; [constructor|].
  rewrite last_last, rev_app_distr, zip_snoc. simpl. eapply sp_mod.
  - apply elem_of_app. right. by left.
  - clear -IH. assert (∀ r1 r2 n l e, r1 ⊆ r2 → server_path r1 n l e → server_path r2 n l e) as Hmono.
    { intros r1 r2 n l e Hs H. induction H; econstructor; eauto. }
    eapply Hmono; [|exact IH]. set_solver.
Qed.

Theorem pointer_paths fuel s name dst ty uniq os :
  let st := create_pointer fuel s name dst ty uniq in
  let st' := prun name st os in
  let d0 := original_dst name dst uniq in
  NoDup (src_added os) → undisturbed name os →
  client_path (ws st') (sret st') (name +:+ ".src")%string (src_added os) (List.last (ifaces name st os) d0) ∧
  p_iface (pt st') = List.last (ifaces name st os) d0 ∧
  hd_error (p_dmods (pt st')) = Some (List.last (dst_added name st os) d0) ∧
  server_path (dret st') (List.last (dst_added name st os) d0) (rev (dst_added name st os)) d0 ∧
  (sret st').*1 = src_added os ∧ (dret st').*1 = dst_added name st os.
Proof.
  intros st st' d0 Hnd Hu. assert (inv name d0 st' (src_added os) (dst_added name st os) (ifaces name st os)) as [H1 H2 H3 H4 H5 H6 H7 H8].
  { apply (inv_run name d0 os st [] [] []); [done|exact Hu|]. apply inv_create. }
  split_and!; [|done| | | |].
  - rewrite <- H5. apply path_of_links; [exact H4|]. intros m Hm. rewrite H2. apply elem_of_list_fmap. eauto.
  - rewrite H6. clear. induction (dst_added name st os) as [|x ds _] using rev_ind; [done|]. by rewrite rev_app_distr, last_last.
  - rewrite H8. apply path_of_zip.
  - rewrite H2, <- list_fmap_compose. unfold compose. simpl. by rewrite list_fmap_id.
  - rewrite H8. clear. generalize (dst_added name st os) as l. intros l. generalize d0 as d. induction l as [|x l IH]; intros d; [done|]. simpl. f_equal. apply IH.
Qed.

(** ** Names that are left alone *)
Lemma pstep_frame name st o x ms : x ∉ own_names name (ms ++ src_added [o]) → x ∉ touches name o → p_tail (pt st) ∈ own_names name ms →
  sp_defs (ws (pstep name st o)) !! x = sp_defs (ws st) !! x ∧ sp_aliases (ws (pstep name st o)) !! x = sp_aliases (ws st) !! x ∧
  errs (pstep name st o) = errs st ∧ p_tail (pt (pstep name st o)) ∈ own_names name (ms ++ src_added [o]).
Proof.
  intros Hx Ht Htail.
  assert (Hsub : ∀ y, y ∈ own_names name ms → y ∈ own_names name (ms ++ src_added [o])).
  { unfold own_names. intros y. rewrite !elem_of_cons, !elem_of_list_fmap. intros [?|(z & ? & ?)]; [by left|right]. exists z. set_solver. }
  assert (p_tail (pt st) ≠ x) as Hne. { intros <-. apply Hx. by apply Hsub. }
  destruct o as [m|m b|a|ns ty|o]; cbn [pstep].
  - unfold add_src, do_ops. cbn [ws fold_left errs pt p_tail].
    assert ((m +:+ ".ptr.src.next")%string ∈ own_names name (ms ++ src_added [PSrc m])) as Hin.
    { simpl. rewrite own_snoc. set_solver. }
    assert ((m +:+ ".ptr.src.next")%string ≠ x) by congruence.
    rewrite !step_defs_ne, !step_aliases_ne by done. auto.
  - unfold add_dst. cbn [ws errs pt p_tail]. destruct b; rewrite ?step_defs_ne, ?step_aliases_ne by done; auto.
  - unfold add_addr. destruct (get_address (ws st) a) as [t|]; [|split_and!; auto].
    unfold add_dst. cbn [ws errs pt p_tail]. rewrite !step_defs_ne, !step_aliases_ne by done. auto.
  - unfold add_to, add_dst, do_ops. cbn [ws fold_left errs pt p_tail]. cbn [touches] in Ht.
    assert ((name +:+ "." +:+ ns)%string ≠ x ∧ ns ≠ x) as [??].
    { rewrite elem_of_cons, elem_of_list_singleton in Ht. split; intros E; apply Ht; auto. }
    rewrite !step_defs_ne, !step_aliases_ne by done. auto.
  - cbn [ws errs pt p_tail]. simpl in Ht. assert (op_name o ≠ x). { intros E. apply Ht. rewrite E. by left. }
    rewrite step_defs_ne, step_aliases_ne by done. auto.
Qed.
Lemma prun_frame name os : ∀ st x ms, x ∉ own_names name (ms ++ src_added os) → (∀ o, o ∈ os → x ∉ touches name o) →
  p_tail (pt st) ∈ own_names name ms →
  sp_defs (ws (prun name st os)) !! x = sp_defs (ws st) !! x ∧ sp_aliases (ws (prun name st os)) !! x = sp_aliases (ws st) !! x ∧
  errs (prun name st os) = errs st.
Proof.
  induction os as [|o os IH]; intros st x ms Hx Ht Htail; [done|].
  change (o :: os) with ([o] ++ os) in Hx. rewrite src_added_app, app_assoc in Hx.
  destruct (pstep_frame name st o x ms) as (E1 & E2 & E3 & Htail'); [|apply Ht; by left|done|].
  { intros E. apply Hx. revert E. generalize (ms ++ src_added [o]). intros l. unfold own_names.
    rewrite !elem_of_cons, !elem_of_list_fmap. intros [?|(z & ? & ?)]; [by left|right]. exists z. set_solver. }
  destruct (IH (pstep name st o) x (ms ++ src_added [o])) as (F1 & F2 & F3); [done|intros; apply Ht; by right|done|].
  change (prun name st (o :: os)) with (prun name (pstep name st o) os). by rewrite F1, F2, F3.
Qed.

Lemma create_tail fuel s name dst ty uniq : p_tail (pt (create_pointer fuel s name dst ty uniq)) ∈ own_names name [].
Proof.
  unfold create_pointer. destruct uniq as [vis|]; [destruct (require_uniqueness _ _ _)|]; simpl; by left.
Qed.
Lemma dst_ne_src name : (name +:+ ".dst" ≠ name +:+ ".src")%string.
Proof. intros H. apply (f_equal (slast Ascii.zero)) in H. by rewrite !slast_app in H. Qed.
Lemma name_ne_suffix (name x : string) : x ≠ "" → name ≠ (name +:+ x)%string.
Proof. intros Hx H. apply (f_equal String.length) in H. rewrite slen_app in H. destruct x; [done|]. simpl in H. lia. Qed.
Lemma srev (a b : string) : ∀ n c d, (a +:+ c = b +:+ d)%string → String.length c = n → String.length d = n → c = d.
Proof.
  revert b. induction a as [|x a IH]; intros b n c d H Hc Hd.
  - destruct b as [|y b]; [done|]. apply (f_equal String.length) in H. rewrite !slen_app in H. simpl in H. lia.
  - destruct b as [|y b]; [|injection H as -> H; eauto].
    apply (f_equal String.length) in H. rewrite !slen_app in H. simpl in H. lia.
Qed.

(** ** The start of the client side *)
Theorem pointer_start fuel s name dst ty uniq os :
  let st' := prun name (create_pointer fuel s name dst ty uniq) os in
  name ∉ own_names name (src_added os) → (∀ o, o ∈ os → name ∉ touches name o) →
  ∃ d, sp_defs (ws st') !! name = Some d ∧ wd_build d = Some (BPointer (name +:+ ".src")) ∧ wd_type d = ty.
Proof.
  intros st' Hn Ht. destruct (prun_frame name os (create_pointer fuel s name dst ty uniq) name []) as (E & _ & _); [done|done|apply create_tail|].
  fold st' in E. rewrite E. unfold create_pointer.
  destruct uniq as [vis|]; [destruct (require_uniqueness _ _ _) as [s1 e]|]; unfold do_ops; cbn [ws fold_left].
  - pose proof (step_define_at (step s1 (OAlias (name +:+ ".src") (name +:+ ".dst"))) name ty (Some (BPointer (name +:+ ".src"))) None VOther) as (d & Hd & H1 & H2).
    set (s2 := step _ (ODefine _ _ _ _ _)) in *. simpl. unfold set_property, get_def_create. rewrite Hd. simpl. rewrite lookup_insert. eauto.
  - pose proof (step_define_at (step s (OAlias (name +:+ ".src") dst)) name ty (Some (BPointer (name +:+ ".src"))) None VOther) as (d & Hd & H1 & H2).
    set (s2 := step _ (ODefine _ _ _ _ _)) in *. simpl. unfold set_property, get_def_create. rewrite Hd. simpl. rewrite lookup_insert. eauto.
Qed.

(** ** The end of the server side *)
Lemma dst_not_own name ms : (name +:+ ".dst")%string ∉ own_names name ms.
Proof.
  unfold own_names. rewrite elem_of_cons, elem_of_list_fmap. intros [E|(m & E & _)]; [by apply dst_ne_src in E|].
  assert (m +:+ ".ptr.src.next" = (m +:+ ".ptr.src.") +:+ "next")%string as E2.
  { clear. induction m; [done|]. exact (f_equal (String a) IHm). }
  rewrite E2 in E. by apply (srev _ _ 4) in E.
Qed.
Lemma check_not_own name dst ms : (dst +:+ ".uniqueness_check")%string ∉ own_names name ms.
Proof.
  unfold own_names. rewrite elem_of_cons, elem_of_list_fmap. intros [E|(m & E & _)]; apply (f_equal (slast Ascii.zero)) in E; by rewrite !slast_app in E.
Qed.
Lemma create_frame fuel s name dst ty vis x :
  let s1 := step s (OAlias (name +:+ ".dst") dst) in
  x ≠ (name +:+ ".src")%string → x ≠ name →
  sp_defs (ws (create_pointer fuel s name dst ty (Some vis))) !! x = sp_defs (require_uniqueness fuel s1 (name +:+ ".dst") (Some vis)).1 !! x ∧
  sp_aliases (ws (create_pointer fuel s name dst ty (Some vis))) !! x = sp_aliases (require_uniqueness fuel s1 (name +:+ ".dst") (Some vis)).1 !! x.
Proof.
  intros s1 H1 H2. unfold create_pointer. fold s1. destruct (require_uniqueness _ _ _ _) as [s2 e]. cbn [ws do_ops fold_left fst].
  rewrite !step_defs_ne, !step_aliases_ne by done. done.
Qed.
Theorem pointer_destination fuel s name dst ty vis os :
  let st' := prun name (create_pointer fuel s name dst ty (Some vis)) os in
  let check := (dst +:+ ".uniqueness_check")%string in
  name ≠ check → (∀ o, o ∈ os → (name +:+ ".dst")%string ∉ touches name o ∧ check ∉ touches name o) →
  match get_def fuel (step s (OAlias (name +:+ ".dst") dst)) dst with
  | Some (Some d) =>
      get_alias (ws st') (name +:+ ".dst") = Some check ∧
      (∃ d', sp_defs (ws st') !! check = Some d' ∧ wd_build d' = Some (BCheck (dst +:+ ".visibility") dst) ∧ wd_type d' = wd_type d) ∧
      errs st' = []
  | _ => get_alias (ws st') (name +:+ ".dst") = Some dst ∧ errs st' = [dst]
  end.
Proof.
  intros st' check Hname Ht. set (st := create_pointer fuel s name dst ty (Some vis)) in *.
  destruct (prun_frame name os st (name +:+ ".dst") []) as (_ & E2 & E3); [apply dst_not_own|intros o Ho; by apply Ht|apply create_tail|].
  destruct (prun_frame name os st check []) as (F1 & _ & _); [apply check_not_own|intros o Ho; by apply Ht|apply create_tail|].
  fold st' in E2, E3, F1. unfold get_alias. rewrite E2, E3, F1. subst st.
  destruct (create_frame fuel s name dst ty vis (name +:+ ".dst")) as [_ ->]; [apply dst_ne_src|by apply not_eq_sym, name_ne_suffix|].
  destruct (create_frame fuel s name dst ty vis check) as [-> _]; [|done|].
  { intros E. apply (check_not_own name dst []). unfold check in E. rewrite E. by left. }
  unfold create_pointer. set (s1 := step s (OAlias (name +:+ ".dst") dst)).
  assert (get_alias s1 (name +:+ ".dst") = Some dst) as Ha by apply alias_at.
  unfold require_uniqueness. rewrite Ha.
  destruct (get_def fuel s1 dst) as [[d|]|]; [|cbn [fst errs]; split; [exact Ha|done]..].
  cbn [fst do_ops fold_left errs]. fold check. split_and!; [apply alias_at| |done].
  set (s2 := step s1 (ODefine (dst +:+ ".visibility") _ _ _ _)).
  pose proof (step_define_at s2 check (wd_type d) (Some (BCheck (dst +:+ ".visibility") dst)) None VOther) as (d' & Hd & H1 & H2).
  exists d'. split; [|done]. rewrite step_defs_ne; [done|]. simpl. intros E. apply (f_equal (slast Ascii.zero)) in E.
  unfold check in E. by rewrite !slast_app in E.
Qed.
