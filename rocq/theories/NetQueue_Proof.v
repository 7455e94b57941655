From Verif Require Export NetQueue_Spec Copy_Proof.
Set Default Proof Using "Type".
Section proof.
Context (Q : qcodec).
Notation rstate := (rstate Q).

Lemma popped_by_app l l' c : popped_by Q (l ++ l') c = popped_by Q l c ++ popped_by Q l' c.
Proof. unfold popped_by. apply omap_app. Qed.
Lemma handed_app l l' c : handed_to Q (l ++ l') c = handed_to Q l c ++ handed_to Q l' c.
Proof. unfold handed_to. apply omap_app. Qed.

(** Moves that leave messages, buffers and the popped messages alone *)
Lemma accounted_same (s s' : rstate) :
  r_arrived Q s' = r_arrived Q s → r_broker Q s' = r_broker Q s → r_buf Q s' = r_buf Q s → r_dropped Q s' = r_dropped Q s →
  (∀ c, popped_by Q (r_log Q s') c = popped_by Q (r_log Q s) c) → accounted Q s → accounted Q s'.
Proof.
  intros H1 H2 H3 H4 H5 (sent & Ha & Hc). exists sent. rewrite H1, H2. split; [done|]. intros c.
  rewrite Hc, H5. unfold buf, dropped. by rewrite H3, H4.
Qed.
Lemma receive_accounted s c t d s' :
  (c ∈ r_open Q s ∨ True) → accounted Q s → receive Q s c t d = Some s' → accounted Q s'.
Proof.
  intros _ Hs H. unfold receive in H. destruct (buf Q s c) as [|m rest] eqn:Hb.
  - case_bool_decide; [done|]. injection H as <-. eapply accounted_same; [..|done]; try done.
    intros c'. simpl. rewrite popped_by_app. simpl. by rewrite app_nil_r.
  - injection H as <-. destruct Hs as (sent & Ha & Hc). exists sent. split; [done|]. intros c'. rewrite Hc. simpl.
    rewrite popped_by_app. unfold buf, dropped in *. simpl. destruct (decide (c = c')) as [<-|Hne].
    + rewrite Hb, lookup_insert. simpl. by rewrite <-app_assoc.
    + rewrite lookup_insert_ne by done. by rewrite app_nil_r.
Qed.
(** A client that still has its connection has dropped nothing. *)
Definition undropped (s : rstate) : Prop := ∀ c, c ∈ r_open Q s → dropped Q s c = [].
Lemma undropped_step s m : undropped s → undropped (rstep Q s m).
Proof.
  intros H. destruct m as [c|c x f|c|c t d|c t|c t|c t|c n]; simpl.
  - destruct (r_dropped Q s !! c) eqn:Hd; [done|]. intros c'. simpl. rewrite elem_of_union, elem_of_singleton.
    intros [->|Hin]; [|by apply H]. unfold dropped. simpl. by rewrite Hd.
  - destruct (qmarshal Q x); [|done]. case_bool_decide; [|done]. by destruct f.
  - destruct (r_broker Q s); [done|]. by case_bool_decide.
  - destruct (r_wait Q s !! _); [done|]. unfold receive. destruct (buf Q s c); [|done]. by case_bool_decide.
  - destruct (r_wait Q s !! _); [|done]. unfold receive. destruct (buf Q s c); [|done]. by case_bool_decide.
  - case_bool_decide; [|done]. by destruct (r_wait Q s !! _).
  - done.
  - intros c'. simpl. intros [Hin Hne]%elem_of_difference. rewrite elem_of_singleton in Hne. unfold dropped. simpl.
    rewrite lookup_insert_ne by done. by apply H.
Qed.
Lemma accounted_step s m : undropped s → accounted Q s → accounted Q (rstep Q s m).
Proof.
  intros Hu Hs. destruct m as [c|c x f|c|c t d|c t|c t|c t|c n]; simpl.
  - destruct (r_dropped Q s !! c); [done|]. by eapply accounted_same; [..|exact Hs].
  - destruct (qmarshal Q x) as [m|].
    2:{ eapply accounted_same; [..|exact Hs]; try done. intros c'. simpl. rewrite popped_by_app. by rewrite app_nil_r. }
    assert (∀ s ok, accounted Q s → accounted Q (log Q s (RPushed Q c x ok))) as Hlog.
    { intros s0 ok H. eapply accounted_same; [..|exact H]; try done. intros c'. simpl. rewrite popped_by_app. by rewrite app_nil_r. }
    assert (accounted Q (arrive Q s m)) as Harr.
    { destruct Hs as (sent & Ha & Hc). exists sent. simpl. rewrite Ha, <-app_assoc. split; [done|]. exact Hc. }
    case_bool_decide; [|auto]. destruct f; auto.
  - destruct (r_broker Q s) as [|m rest] eqn:Hb; [done|]. case_bool_decide as Ho; [|done].
    destruct Hs as (sent & Ha & Hc). exists (sent ++ [(c, m)]). simpl. rewrite Ha, Hb, map_app, <-app_assoc. split; [done|].
    intros c'. rewrite handed_app, Hc. unfold buf, dropped in *. simpl. case_decide as Hcc; simpl.
    + subst c'. rewrite lookup_insert. simpl. specialize (Hu c Ho). unfold dropped in Hu. rewrite Hu.
      by rewrite !app_nil_r, <-!app_assoc.
    + rewrite lookup_insert_ne by done. by rewrite app_nil_r.
  - destruct (r_wait Q s !! _); [done|]. destruct (receive Q s c t d) as [s'|] eqn:Hr.
    + eapply receive_accounted; eauto.
    + by eapply accounted_same; [..|exact Hs].
  - destruct (r_wait Q s !! _) as [d|]; [|done]. destruct (receive Q s c t d) as [s'|] eqn:Hr; [|done].
    eapply receive_accounted; eauto.
  - case_bool_decide; [|done]. destruct (r_wait Q s !! _); [|done]. eapply accounted_same; [..|exact Hs]; try done.
    intros c'. simpl. rewrite popped_by_app. by rewrite app_nil_r.
  - by eapply accounted_same; [..|exact Hs].
  - destruct Hs as (sent & Ha & Hc). exists sent. simpl. split; [done|]. intros c'. rewrite Hc. unfold buf, dropped. simpl.
    destruct (decide (c = c')) as [->|Hne]; [|by rewrite !lookup_insert_ne]. rewrite !lookup_insert. simpl.
    by rewrite (app_assoc (take _ _)), take_drop.
Qed.
Lemma rrun_app ms m : rrun Q (ms ++ [m]) = rstep Q (rrun Q ms) m.
Proof. unfold rrun. by rewrite fold_left_app. Qed.
Lemma rrun_inv ms : undropped (rrun Q ms) ∧ accounted Q (rrun Q ms).
Proof.
  induction ms as [|m ms [IH1 IH2]] using rev_ind.
  - split; [intros c; set_solver|]. exists []. split; [done|]. intros c. done.
  - rewrite rrun_app. split; [by apply undropped_step|by apply accounted_step].
Qed.

(** What arrived was pushed. *)
Definition sourced (s : rstate) : Prop := r_arrived Q s `sublist_of` pushed Q (r_log Q s).
Lemma pushed_app l l' : pushed Q (l ++ l') = pushed Q l ++ pushed Q l'.
Proof. apply omap_app. Qed.
Lemma sourced_log s o : sourced s → sourced (log Q s o).
Proof. unfold sourced. simpl. intros H. rewrite pushed_app. by apply sublist_inserts_r. Qed.
Lemma sourced_step s m : sourced s → sourced (rstep Q s m).
Proof.
  intros H. destruct m as [c|c x f|c|c t d|c t|c t|c t|c n]; simpl.
  - by destruct (r_dropped Q s !! c).
  - destruct (qmarshal Q x) as [m|] eqn:Hm; [|by apply sourced_log].
    assert (∀ ok, sourced (log Q (arrive Q s m) (RPushed Q c x ok))) as Harr.
    { intros ok. unfold sourced. simpl. rewrite pushed_app. simpl. rewrite Hm. by apply sublist_app. }
    case_bool_decide; [|by apply sourced_log]. destruct f; auto using sourced_log.
  - destruct (r_broker Q s); [done|]. by case_bool_decide.
  - destruct (r_wait Q s !! _); [done|]. unfold receive. destruct (buf Q s c); [case_bool_decide|].
    + done.
    + by apply (sourced_log (set_wait Q s _)).
    + unfold sourced in *. simpl. rewrite pushed_app. by apply sublist_inserts_r.
  - destruct (r_wait Q s !! _); [|done]. unfold receive. destruct (buf Q s c); [case_bool_decide|].
    + done.
    + by apply (sourced_log (set_wait Q s _)).
    + unfold sourced in *. simpl. rewrite pushed_app. by apply sublist_inserts_r.
  - case_bool_decide; [|done]. destruct (r_wait Q s !! _); [|done]. by apply (sourced_log (set_wait Q s _)).
  - done.
  - done.
Qed.
Lemma rrun_sourced ms : sourced (rrun Q ms).
Proof.
  induction ms as [|m ms IH] using rev_ind; [constructor|]. rewrite rrun_app. by apply sourced_step.
Qed.

(** ** One client, no failures *)
Lemma acknowledged_app l l' : acknowledged Q (l ++ l') = acknowledged Q l ++ acknowledged Q l'.
Proof. apply omap_app. Qed.
Definition calm_inv (s : rstate) : Prop := r_arrived Q s = acknowledged Q (r_log Q s) ∧ r_dropped Q s = ∅.
Lemma calm_step s m : calm_move m → calm_inv s → calm_inv (rstep Q s m).
Proof.
  intros Hm [H1 H2]. unfold calm_inv.
  assert (∀ c t d, match receive Q s c t d with Some s' => calm_inv s' | None => True end) as Hrec.
  { intros c t d. unfold receive, calm_inv. destruct (buf Q s c); [case_bool_decide; [done|]|]; simpl;
      rewrite acknowledged_app; simpl; by rewrite app_nil_r. }
  destruct m as [c|c x f|c|c t d|c t|c t|c t|c n]; simpl in *.
  - by destruct (r_dropped Q s !! c).
  - subst f. destruct (qmarshal Q x) as [m|] eqn:Hx; [|simpl; rewrite acknowledged_app; simpl; by rewrite app_nil_r].
    case_bool_decide; simpl; rewrite acknowledged_app; simpl; [|by rewrite app_nil_r]. rewrite Hx, H1. done.
  - destruct (r_broker Q s); [done|]. by case_bool_decide.
  - destruct (r_wait Q s !! _); [done|]. specialize (Hrec c t d). destruct (receive Q s c t d); [done|]. done.
  - destruct (r_wait Q s !! _) as [d|]; [|done]. specialize (Hrec c t d). by destruct (receive Q s c t d).
  - case_bool_decide; [|done]. destruct (r_wait Q s !! _); [|done]. simpl. rewrite acknowledged_app. simpl. by rewrite app_nil_r.
  - done.
  - done.
Qed.
Lemma calm_run ms : Forall calm_move ms → calm_inv (rrun Q ms).
Proof.
  induction ms as [|m ms IH] using rev_ind; intros H; [done|]. rewrite rrun_app.
  apply Forall_app in H as [H1 H2]. inversion_clear H2. apply calm_step; auto.
Qed.
Definition only_inv (c : nat) (s : rstate) : Prop :=
  (∀ c', c' ∈ r_open Q s → c' = c) ∧ ∀ c', c' ≠ c → buf Q s c' = [] ∧ popped_by Q (r_log Q s) c' = [].
Lemma only_step c s m : only c m → only_inv c s → only_inv c (rstep Q s m).
Proof.
  intros Hm [H1 H2]. unfold only_inv.
  assert (∀ o c', popped_by Q [o] c' = [] → c' ≠ c → popped_by Q (r_log Q s ++ [o]) c' = []) as Hlog.
  { intros o c' Ho Hne. rewrite popped_by_app, Ho, app_nil_r. by apply H2. }
  assert (∀ c0 t d, match receive Q s c0 t d with Some s' => only_inv c s' | None => True end) as Hrec.
  { intros c0 t d. unfold receive, only_inv. destruct (buf Q s c0) as [|m0 rest] eqn:Hb; [case_bool_decide; [done|]|]; simpl.
    - split; [done|]. intros c' Hne. split; [by apply H2|by apply Hlog].
    - destruct (decide (c0 = c)) as [->|Hne0]; [|destruct (H2 c0 Hne0) as [Hbb _]; congruence].
      split; [done|]. intros c' Hne. split; [|apply Hlog; [|done]; simpl; by rewrite decide_False by done].
      unfold buf. simpl. rewrite lookup_insert_ne by done. by apply H2. }
  destruct m as [c0|c0 x f|c0|c0 t d|c0 t|c0 t|c0 t|c0 n]; simpl in *.
  - subst c0. destruct (r_dropped Q s !! c); [done|]. simpl. split; [|done]. set_solver.
  - destruct (qmarshal Q x); [|split; [done|]; intros; split; [by apply H2|by apply Hlog]].
    case_bool_decide; [|split; [done|]; intros; split; [by apply H2|by apply Hlog]].
    destruct f; (split; [done|]; intros; split; [by apply H2|by apply Hlog]).
  - destruct (r_broker Q s); [done|]. case_bool_decide as Ho; [|done]. simpl. split; [done|]. intros c' Hne.
    split; [|by apply H2]. rewrite (H1 _ Ho). unfold buf. simpl. rewrite lookup_insert_ne by done. by apply H2.
  - destruct (r_wait Q s !! _); [done|]. specialize (Hrec c0 t d). destruct (receive Q s c0 t d); [done|]. done.
  - destruct (r_wait Q s !! _) as [d|]; [|done]. specialize (Hrec c0 t d). by destruct (receive Q s c0 t d).
  - case_bool_decide; [|done]. destruct (r_wait Q s !! _); [|done]. simpl. split; [done|]. intros. split; [by apply H2|by apply Hlog].
  - done.
  - split; [set_solver|]. intros c' Hne. split; [|by apply H2]. unfold buf. simpl.
    destruct (decide (c0 = c')) as [->|Hn]; [rewrite lookup_insert; simpl|by rewrite lookup_insert_ne; [apply H2|]].
    destruct (H2 c' Hne) as [Hb _]. unfold buf in Hb. rewrite Hb. by rewrite take_nil.
Qed.
Lemma only_run c ms : Forall (only c) ms → only_inv c (rrun Q ms).
Proof.
  induction ms as [|m ms IH] using rev_ind; intros H; [split; [set_solver|done]|]. rewrite rrun_app.
  apply Forall_app in H as [H1 H2]. inversion_clear H2. apply only_step; auto.
Qed.
Lemma popped_only l c : (∀ c', c' ≠ c → popped_by Q l c' = []) → popped_by Q l c = popped Q l.
Proof.
  induction l as [|o l IH]; intros H; [done|]. 
  assert (∀ c', c' ≠ c → popped_by Q l c' = []) as Hl.
  { intros c' Hne. specialize (H c' Hne). destruct o; try done. simpl in H. by case_decide. }
  specialize (IH Hl). destruct o; try done. simpl. destruct (decide (c0 = c)) as [->|Hne]; [by f_equal|].
  specialize (H c0 Hne). simpl in H. by rewrite decide_True in H by done.
Qed.
Lemma handed_only sent c : (∀ c', c' ≠ c → handed_to Q sent c' = []) → handed_to Q sent c = map snd sent.
Proof.
  induction sent as [|[c0 m] sent IH]; intros H; [done|].
  assert (∀ c', c' ≠ c → handed_to Q sent c' = []) as Hl.
  { intros c' Hne. specialize (H c' Hne). simpl in H. by case_decide. }
  specialize (IH Hl). simpl. destruct (decide (c0 = c)) as [->|Hne]; [by f_equal|].
  specialize (H c0 Hne). simpl in H. by rewrite decide_True in H by done.
Qed.
Lemma fifo ms c :
  Forall calm_move ms → Forall (only c) ms →
  acknowledged Q (r_log Q (rrun Q ms)) = popped Q (r_log Q (rrun Q ms)) ++ buf Q (rrun Q ms) c ++ r_broker Q (rrun Q ms).
Proof.
  intros Hc Ho. destruct (rrun_inv ms) as [_ (sent & Ha & Hs)]. destruct (calm_run ms Hc) as [Hack Hd].
  destruct (only_run c ms Ho) as [_ Hon]. set (s := rrun Q ms) in *.
  assert (∀ c', dropped Q s c' = []) as Hdd by (intros c'; unfold dropped; by rewrite Hd).
  rewrite <-Hack, Ha. rewrite app_assoc. f_equal. rewrite <-(handed_only sent c), Hs, Hdd, app_nil_r.
  - f_equal. apply popped_only. intros c' Hne. by apply Hon.
  - intros c' Hne. rewrite Hs, Hdd, app_nil_r. destruct (Hon c' Hne) as [-> ->]. done.
Qed.

(** ** Which values come out *)
Lemma json_val_wf jb v : json_val jb v → wf v.
Proof.
  revert v. fix IH 2. intros v [| |vs Hvs]; [done|done|]. apply wf_slice. split; [by apply Forall_true|].
  induction Hvs; constructor; auto.
Qed.
Lemma json_val_data jb v : json_val jb v → json_data jb (erase v).
Proof. revert v. fix IH 2. intros v [| |vs Hvs]; [done|done|]. simpl. induction Hvs; simpl; auto. Qed.
Lemma pop_json jb m d w : qcodec_ok Q jb → pop_result Q m d = COk w → json_data jb (erase w).
Proof.
  intros HQ H. unfold pop_result in H. destruct (decode_any Q m) as [v|] eqn:Hd; [|done].
  apply HQ in Hd. destruct d as [|t]; [done|]. simpl in H.
  destruct (copy_sound v t w (json_val_wf _ _ Hd) H) as [-> _]. by apply json_val_data.
Qed.
Lemma copy_same_data v x t :
  erase v = erase x → wf x → nil_free x → has_type x t →
  ∃ w, copy_result v t = COk w ∧ erase w = erase x.
Proof.
  revert v x. induction t as [|n| |t IH]; intros v x He Hwf Hnf Ht.
  - destruct Ht as [z ->]. destruct v; try done. injection He as ->. by eexists.
  - destruct Ht as [y ->]. destruct v; try done. injection He as -> ->. simpl. rewrite bool_decide_true by done. by eexists.
  - destruct v; [by destruct x| | |]; by eexists.
  - destruct Ht as (xs & -> & Hxs). destruct v as [| | |t0 vs]; try done. injection He as He. cbn [copy_result].
    apply wf_slice in Hwf as [_ Hw]. apply nil_free_slice in Hnf.
    assert (∃ ws, Forall2 (λ v w, copy_result v t = COk w) vs ws ∧ map erase ws = map erase xs) as (ws & Hf & Hew).
    { revert vs He. induction xs as [|x xs IHx]; intros [|v vs] He; try done; [exists []; by split|]. injection He as He1 He2.
      apply Forall_cons in Hxs as [? ?]. apply Forall_cons in Hw as [? ?]. apply Forall_cons in Hnf as [? ?].
      destruct (IHx ltac:(done) ltac:(done) ltac:(done) vs He2) as (ws & ? & ?). destruct (IH v x) as (w & ? & ?); [done..|].
      exists (w :: ws). split; [by constructor|]. simpl. by f_equal. }
    rewrite (copy_elems_complete _ _ _ [] Hf). simpl rev. rewrite app_nil_l. eexists. split; [done|]. simpl. by rewrite Hew.
Qed.
End proof.
