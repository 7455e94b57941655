From Verif Require Import Ports_Model Ports_Spec Ports_Proof Env_Model Names_Spec Names_Proof Compose_Model Compose_Spec.
From Coq Require Import ZifyBool ZifyNat ZifyN Lia.
Set Default Proof Using "Type".
Open Scope list_scope.

(** ** Port assignment only looks at the given binds *)
Definition agree (h g : heap) (bs : list nat) : Prop := ∀ b, b ∈ bs → h !! b = g !! b.

Lemma agree_deref h g bs b : agree h g bs → b ∈ bs → deref h b = deref g b.
Proof. intros Ha Hb. unfold deref. by rewrite Ha. Qed.
Lemma agree_port h g bs b : agree h g bs → b ∈ bs → port_of h b = port_of g b.
Proof. intros Ha Hb. unfold port_of. by erewrite agree_deref. Qed.
Lemma agree_start h g bs b : agree h g bs → b ∈ bs → start_port h b = start_port g b.
Proof. intros Ha Hb. unfold start_port, pref_of. by erewrite agree_deref. Qed.
Lemma agree_tail h g b bs : agree h g (b :: bs) → agree h g bs.
Proof. intros Ha x Hx. apply Ha. by right. Qed.
Lemma agree_sub h g bs bs' : (∀ b, b ∈ bs' → b ∈ bs) → agree h g bs → agree h g bs'.
Proof. intros Hs Ha x Hx. apply Ha. auto. Qed.

Lemma collect_local h g bs ports pre asg :
  agree h g bs → collect h bs ports pre asg = collect g bs ports pre asg.
Proof.
  revert ports pre asg. induction bs as [|b bs IH]; intros ports pre asg Ha; simpl; [done|].
  rewrite (agree_port h g (b :: bs)) by (done || left).
  apply agree_tail in Ha. destruct (bool_decide _); [by apply IH|].
  destruct (ports !! _); [done|]. by apply IH.
Qed.
Lemma collect_asg h bs ports pre asg ports' pre' asg' :
  collect h bs ports pre asg = inl (ports', pre', asg') → ∀ b, b ∈ asg' → b ∈ asg ∨ b ∈ bs.
Proof.
  revert ports pre asg. induction bs as [|x bs IH]; intros ports pre asg; simpl.
  - intros [= <- <- <-]. auto.
  - destruct (bool_decide _).
    + intros Hc b Hb. destruct (IH _ _ _ Hc b Hb) as [H|H]; set_solver.
    + destruct (ports !! _); [done|]. intros Hc b Hb. destruct (IH _ _ _ Hc b Hb) as [H|H]; set_solver.
Qed.
Lemma set_port_agree h g bs b v : agree h g bs → agree (set_port h b v) (set_port g b v) bs.
Proof.
  intros Ha x Hx. unfold set_port. destruct (decide (b = x)) as [->|Hne].
  - rewrite !lookup_alter. by rewrite Ha.
  - rewrite !lookup_alter_ne by done. by apply Ha.
Qed.
Lemma assign_loop_local f h g bs ports asg :
  agree h g bs → (∀ b, b ∈ asg → b ∈ bs) →
  match assign_loop f h ports asg, assign_loop f g ports asg with
  | Some (h', p'), Some (g', q') => agree h' g' bs ∧ p' = q'
  | None, None => True
  | _, _ => False
  end.
Proof.
  revert h g ports. induction asg as [|b asg IH]; intros h g ports Ha Hs; simpl; [done|].
  rewrite (agree_start h g bs) by (done || apply Hs; left).
  destruct (search f ports (start_port g b)) as [c|]; [|done].
  apply IH; [by apply set_port_agree|]. set_solver.
Qed.
Lemma set_prefs_agree h g bs l : agree h g bs → (∀ b, b ∈ l → b ∈ bs) → agree (set_prefs h l) (set_prefs g l) bs.
Proof.
  unfold set_prefs. revert h g. induction l as [|b l IH]; intros h g Ha Hs; simpl; [done|].
  apply IH; [|set_solver]. intros x Hx.
  rewrite (agree_port h g bs) by (done || apply Hs; left).
  unfold set_pref. destruct (decide (b = x)) as [->|Hne].
  - rewrite !lookup_alter. by rewrite Ha.
  - rewrite !lookup_alter_ne by done. by apply Ha.
Qed.
Lemma assign_ports_local f h g bs :
  agree h g bs →
  match assign_ports f h bs, assign_ports f g bs with
  | APorts h' p a, APorts g' q b => agree h' g' bs ∧ p = q ∧ a = b
  | AConflict x y, AConflict x' y' => x = x' ∧ y = y'
  | ADiverge, ADiverge => True
  | _, _ => False
  end.
Proof.
  intros Ha. unfold assign_ports. rewrite (collect_local h g) by done.
  destruct (collect g bs ∅ [] []) as [[[ports pre] asg]|[x y]] eqn:Ec; [|done].
  assert (Hs : ∀ b, b ∈ asg → b ∈ bs).
  { intros b Hb. destruct (collect_asg _ _ _ _ _ _ _ _ Ec b Hb); set_solver. }
  pose proof (assign_loop_local f h g bs ports asg Ha Hs) as Hl.
  destruct (assign_loop f h ports asg) as [[h' p']|], (assign_loop f g ports asg) as [[g' q']|]; try done.
  destruct Hl as [Hl _]. split_and!; [|done..]. by apply set_prefs_agree.
Qed.

Lemma clear_ne h l b : b ∉ l → clear h l !! b = h !! b.
Proof.
  unfold clear. revert h. induction l as [|x l IH]; intros h Hb; simpl; [done|].
  rewrite IH by set_solver. apply lookup_alter_ne. set_solver.
Qed.

(** ** Environment writes *)
Definition writes (l : list (string * string)) (c : gmap string string) : gmap string string :=
  fold_left (λ c kv, <[EnvVar kv.1 := kv.2]> c) l c.
Lemma writes_app l l' c : writes (l ++ l') c = writes l' (writes l c).
Proof. unfold writes. by rewrite fold_left_app. Qed.
Lemma writes_none l c v : (∀ k s, (k, s) ∈ l → EnvVar k ≠ v) → writes l c !! v = c !! v.
Proof.
  induction l as [|[k s] l IH] using rev_ind; intros Hn; [done|].
  rewrite writes_app. unfold writes at 1. cbn [fold_left fst snd].
  rewrite lookup_insert_ne; [apply IH; set_solver|]. apply (Hn k s). set_solver.
Qed.
Lemma writes_some l c v s :
  (∃ k, (k, s) ∈ l ∧ EnvVar k = v) → (∀ k' s', (k', s') ∈ l → EnvVar k' = v → s' = s) →
  writes l c !! v = Some s.
Proof.
  induction l as [|[k0 s0] l IH] using rev_ind; intros (k&Hk&Hv) Hu; [set_solver|].
  rewrite writes_app. unfold writes at 1. cbn [fold_left fst snd].
  destruct (decide (EnvVar k0 = v)) as [E|E].
  - rewrite E, lookup_insert. f_equal. apply (Hu k0 s0); [set_solver|done].
  - rewrite lookup_insert_ne by done. apply IH; [|set_solver].
    exists k. split; [|done]. apply elem_of_app in Hk as [?|Hk]; [done|].
    apply elem_of_list_singleton in Hk. congruence.
Qed.

(** ** Per-instance view *)
Lemma alter_alter {A} (f g : A → A) (k : string) (m : gmap string A) : alter f k (alter g k m) = alter (f ∘ g) k m.
Proof. by rewrite <-alter_compose. Qed.
Lemma fold_alter {A X} (g : X → A → A) (k : string) (l : list X) (m : gmap string A) :
  fold_left (λ m x, alter (g x) k m) l m = alter (λ i, fold_left (λ i x, g x i) l i) k m.
Proof.
  revert m. induction l as [|x l IH]; intros m; cbn [fold_left].
  - symmetry. apply alter_id. done.
  - rewrite IH, alter_alter. done.
Qed.

Definition rest_inst (rest : list carg) (i : inst) : inst :=
  fold_left (λ i a, match a with AConf k false opt => passthrough k opt i | _ => i end) rest i.
Definition tell_inst (h : heap) (asg : list nat) (i : inst) : inst :=
  fold_left (λ i b, add_env (b_key (deref h b)) (host_port "0.0.0.0" (port_of h b)) i) asg i.
Definition expose_inst (h : heap) (bs : list nat) (i : inst) : inst :=
  fold_left (λ i b, expose (port_of h b) i) bs i.
Definition map_inst (h : heap) (bs : list nat) (i : inst) : inst :=
  fold_left (λ i b, map_port_env (port_of h b) (b_key (deref h b)) i) bs i.
Definition dial_inst (addrs : gmap string string) (ds : list (string * string)) (i : inst) : inst :=
  fold_left (λ i d, match addrs !! d.2 with Some a => add_env d.1 a i | None => passthrough d.1 false i end) ds i.

Definition ok_rest (rest : list carg) : bool := forallb (λ a, match a with AConf _ _ _ => true | _ => false end) rest.

Lemma do_rest_spec name rest m :
  do_rest name rest m = if ok_rest rest then Some (upd_inst (rest_inst rest) name m) else None.
Proof.
  unfold upd_inst. revert m. induction rest as [|a rest IH]; intros m; cbn [do_rest ok_rest forallb].
  - f_equal. symmetry. by apply alter_id.
  - destruct a; try done. rewrite IH. unfold ok_rest. cbn. destruct (forallb _ rest); [|done]. f_equal.
    destruct has_value; [done|]. unfold upd_inst. by rewrite alter_alter.
Qed.
Lemma set_dials_spec addrs name ds m : set_dials addrs name ds m = upd_inst (dial_inst addrs ds) name m.
Proof.
  unfold upd_inst, dial_inst. rewrite <-fold_alter. unfold set_dials, upd_inst.
  revert m. induction ds as [|d ds IH]; intros m; [done|]. cbn [fold_left].
  rewrite <-IH. by destruct (addrs !! d.2).
Qed.

Definition ports_inst (h : heap) (args : list carg) (asg : list nat) (i : inst) : inst :=
  map_inst h (binds_of args) (expose_inst h (binds_of args) (tell_inst h asg (rest_inst (rest_of args) i))).

Lemma phase1_one_spec fuel s name args :
  phase1_one fuel s name args =
  if ok_rest (rest_of args) then
    match assign_ports fuel (s_heap s) (binds_of args) with
    | AConflict _ _ => DErr
    | ADiverge => DHang
    | APorts h _ asg =>
        DOk (Dstate (clear h (binds_of args)) (save_addrs h name (binds_of args) (s_addrs s))
                    (upd_inst (ports_inst h args asg) name (s_insts s)))
    end
  else DErr.
Proof.
  unfold phase1_one. rewrite do_rest_spec. destruct (ok_rest (rest_of args)); [|done].
  destruct (assign_ports _ _ _) as [h pre asg| |]; [|done..]. do 2 f_equal.
  unfold map_binds, expose_binds, tell_binds, upd_inst. rewrite !fold_alter, !alter_alter. done.
Qed.

(** ** Both phases as functions of the initial heap *)
Section runs.
  Context (fuel : nat) (h0 : heap) (wargs : gmap string (list carg)).
  Definition args_at (n : string) : list carg := default [] (wargs !! n).
  Definition heap_at (n : string) : heap :=
    match assign_ports fuel h0 (binds_of (args_at n)) with APorts h _ _ => h | _ => h0 end.
  Definition asg_at (n : string) : list nat :=
    match assign_ports fuel h0 (binds_of (args_at n)) with APorts _ _ a => a | _ => [] end.
  Definition ok_at (n : string) : Prop :=
    ok_rest (rest_of (args_at n)) = true ∧ ∃ h p a, assign_ports fuel h0 (binds_of (args_at n)) = APorts h p a.

  Definition inst1 (n : string) : inst → inst := ports_inst (heap_at n) (args_at n) (asg_at n).
  Definition insts1 (order : list string) (m : gmap string inst) : gmap string inst :=
    fold_left (λ m n, upd_inst (inst1 n) n m) order m.
  Definition addrs1 (order : list string) (a : gmap string string) : gmap string string :=
    fold_left (λ a n, save_addrs (heap_at n) n (binds_of (args_at n)) a) order a.

  Lemma fold_left_ext_in {A B} (f g : A → B → A) l a :
    (∀ a b, b ∈ l → f a b = g a b) → fold_left f l a = fold_left g l a.
  Proof.
    revert a. induction l as [|b l IH]; intros a H; [done|]. cbn. rewrite H by left. apply IH.
    intros ?? ?. apply H. by right.
  Qed.

  Lemma save_addrs_agree h g n bs a : agree h g bs → save_addrs h n bs a = save_addrs g n bs a.
  Proof.
    intros Ha. unfold save_addrs. apply fold_left_ext_in. intros m b Hb.
    by rewrite (agree_deref h g bs), (agree_port h g bs).
  Qed.
  Lemma ports_inst_agree h g args asg i :
    agree h g (binds_of args) → (∀ b, b ∈ asg → b ∈ binds_of args) → ports_inst h args asg i = ports_inst g args asg i.
  Proof.
    intros Ha Hs. unfold ports_inst, map_inst, expose_inst, tell_inst.
    rewrite (fold_left_ext_in (λ i b, map_port_env (port_of h b) (b_key (deref h b)) i)
             (λ i b, map_port_env (port_of g b) (b_key (deref g b)) i)).
    2:{ intros x b Hb. by rewrite (agree_deref h g (binds_of args)), (agree_port h g (binds_of args)). }
    f_equal.
    rewrite (fold_left_ext_in (λ i b, expose (port_of h b) i) (λ i b, expose (port_of g b) i)).
    2:{ intros x b Hb. by rewrite (agree_port h g (binds_of args)). }
    f_equal. apply fold_left_ext_in. intros x b Hb.
    rewrite (agree_deref h g (binds_of args)), (agree_port h g (binds_of args)); auto.
  Qed.

  Context (Hheap : ∀ n b, b ∈ binds_of (args_at n) → is_Some (h0 !! b)).
  Context (Hdisj : ∀ n n' b, b ∈ binds_of (args_at n) → b ∈ binds_of (args_at n') → n = n').

  Lemma phase1_spec order s :
    NoDup order → (∀ n, n ∈ order → agree (s_heap s) h0 (binds_of (args_at n))) →
    match phase1 fuel wargs order s with
    | DOk s' => (∀ n, n ∈ order → ok_at n) ∧ s_insts s' = insts1 order (s_insts s) ∧ s_addrs s' = addrs1 order (s_addrs s)
    | DErr => ∃ n, n ∈ order ∧ (ok_rest (rest_of (args_at n)) = false ∨
                  ∃ x y, assign_ports fuel h0 (binds_of (args_at n)) = AConflict x y)
    | DHang => ∃ n, n ∈ order ∧ assign_ports fuel h0 (binds_of (args_at n)) = ADiverge
    end.
  Proof using Hheap Hdisj.
    revert s. induction order as [|n order IH]; intros s Hnd Hag; cbn [phase1].
    { split_and!; [|done..]. set_solver. }
    fold (args_at n). rewrite phase1_one_spec.
    destruct (ok_rest (rest_of (args_at n))) eqn:Er; [|exists n; set_solver].
    pose proof (assign_ports_local fuel (s_heap s) h0 (binds_of (args_at n)) (Hag n ltac:(left))) as Hl.
    destruct (assign_ports fuel (s_heap s) _) as [h p a|x y|] eqn:Ea,
             (assign_ports fuel h0 (binds_of (args_at n))) as [g q b|x' y'|] eqn:Eg; try done.
    - destruct Hl as (Hl&<-&<-).
      apply NoDup_cons in Hnd as [Hn Hnd].
      match goal with |- context [phase1 _ _ _ ?t] => specialize (IH t Hnd) end.
      feed specialize IH.
      { intros x Hx c Hc. cbn [s_heap].
        assert (c ∉ binds_of (args_at n)) as Hcn.
        { intros Hc'. rewrite (Hdisj _ _ _ Hc Hc') in Hx. done. }
        rewrite clear_ne by done.
        apply assign_ports_ok in Ea as (_&_&_&_&_&_&Hun&_).
        - rewrite Hun by done. apply (Hag x); [by right|done].
        - intros d Hd. rewrite (Hag n); [|left|done]. by eapply Hheap. }
      destruct (phase1 _ _ _ _) as [s'| |].
      + destruct IH as (I1&I2&I3). split_and!.
        * intros x [->|Hx]%elem_of_cons; [|by apply I1]. split; [done|]. eauto.
        * rewrite I2. cbn. f_equal. unfold inst1, heap_at, asg_at. rewrite Eg. unfold upd_inst.
          apply alter_ext. intros i _. apply ports_inst_agree; [done|].
          apply assign_ports_ok in Eg as (_&->&_); [|by apply Hheap]. unfold unset.
          intros d Hd. by apply elem_of_list_filter in Hd as [_ ?].
        * rewrite I3. cbn. f_equal. unfold heap_at. rewrite Eg. by apply save_addrs_agree.
      + destruct IH as (x&?&?). exists x. split; [by right|done].
      + destruct IH as (x&?&?). exists x. split; [by right|done].
    - exists n. split; [left|]. eauto.
    - exists n. split; [left|done].
  Qed.

  (** lookups after a fold of updates with distinct clean names *)
  Lemma fold_upd_lookup (F : string → inst → inst) order m :
    NoDup order → (∀ n n', n ∈ order → n' ∈ order → CleanName n = CleanName n' → n = n') →
    (∀ n, n ∈ order → fold_left (λ m n, upd_inst (F n) n m) order m !! CleanName n = F n <$> m !! CleanName n) ∧
    (∀ c, (∀ n, n ∈ order → CleanName n ≠ c) → fold_left (λ m n, upd_inst (F n) n m) order m !! c = m !! c).
  Proof.
    clear Hheap Hdisj. clear wargs h0. intros Hnd Hc. induction order as [|x order IH] using rev_ind; [set_solver|].
    apply NoDup_app in Hnd as (Hnd&Hdis&_).
    destruct IH as [I1 I2]; [done|set_solver|]. rewrite fold_left_app. cbn. unfold upd_inst at 1 3. split.
    - intros n [Hn|Hn]%elem_of_app.
      + rewrite lookup_alter_ne; [by apply I1|]. intros E. apply (Hdis n Hn).
        apply elem_of_list_singleton. apply Hc; [set_solver..|done].
      + apply elem_of_list_singleton in Hn as ->. rewrite lookup_alter. f_equal. apply I2.
        intros n Hn E. apply (Hdis n Hn). apply elem_of_list_singleton. apply Hc; [set_solver..|done].
    - intros c Hnc. rewrite lookup_alter_ne by (apply Hnc; set_solver). apply I2. set_solver.
  Qed.

  Lemma addrs1_spec order a0 :
    (∀ x v, addrs1 order a0 !! x = Some v →
       (∃ n b, n ∈ order ∧ b ∈ binds_of (args_at n) ∧ b_addr (deref (heap_at n) b) = x ∧
          v = host_port (CleanName n) (port_of (heap_at n) b)) ∨ a0 !! x = Some v) ∧
    (∀ n b, n ∈ order → b ∈ binds_of (args_at n) → is_Some (addrs1 order a0 !! b_addr (deref (heap_at n) b))) ∧
    (∀ x, is_Some (a0 !! x) → is_Some (addrs1 order a0 !! x)).
  Proof.
    clear Hheap Hdisj. assert (Hs : ∀ h n bs a,
      (∀ x v, save_addrs h n bs a !! x = Some v →
         (∃ b, b ∈ bs ∧ b_addr (deref h b) = x ∧ v = host_port (CleanName n) (port_of h b)) ∨ a !! x = Some v) ∧
      (∀ b, b ∈ bs → is_Some (save_addrs h n bs a !! b_addr (deref h b))) ∧
      (∀ x, is_Some (a !! x) → is_Some (save_addrs h n bs a !! x))).
    { clear. intros h n bs a. unfold save_addrs. induction bs as [|b bs IH] using rev_ind; cbn.
      - split_and!; [auto|set_solver|done].
      - rewrite fold_left_app. cbn. destruct IH as (I1&I2&I3). split_and!.
        + intros x v [[<- <-]|[Hne Hx]]%lookup_insert_Some.
          * left. exists b. set_solver.
          * destruct (I1 _ _ Hx) as [(c&?&?&?)|?]; [left; exists c; set_solver|by right].
        + intros c [Hc|Hc]%elem_of_app; apply lookup_insert_is_Some'.
          * right. by apply I2.
          * apply elem_of_list_singleton in Hc as ->. by left.
        + intros x Hx. apply lookup_insert_is_Some'. right. by apply I3. }
    unfold addrs1. induction order as [|n order IH] using rev_ind; cbn.
    - split_and!; [auto|set_solver|done].
    - rewrite fold_left_app. cbn. destruct IH as (I1&I2&I3).
      destruct (Hs (heap_at n) n (binds_of (args_at n)) (fold_left (λ a n, save_addrs (heap_at n) n (binds_of (args_at n)) a) order a0)) as (S1&S2&S3).
      split_and!.
      + intros x v Hx. destruct (S1 _ _ Hx) as [(b&?&?&?)|Hx']; [left; exists n, b; set_solver|].
        destruct (I1 _ _ Hx') as [(n'&b&?&?&?&?)|?]; [left; exists n', b; set_solver|by right].
      + intros n' b [Hn|Hn]%elem_of_app Hb; [by apply S3, I2|].
        apply elem_of_list_singleton in Hn as ->. by apply S2.
      + intros x Hx. by apply S3, I3.
  Qed.
End runs.

(** ** What one instance ends up with *)
Definition rest_writes (rest : list carg) : list (string * string) :=
  omap (λ a, match a with AConf k false opt => Some (k, if opt then or_empty k else must_be_set k) | _ => None end) rest.
Definition tell_writes (h : heap) (asg : list nat) : list (string * string) :=
  (λ b, (b_key (deref h b), host_port "0.0.0.0" (port_of h b))) <$> asg.
Definition dial_writes (addrs : gmap string string) (ds : list (string * string)) : list (string * string) :=
  (λ d, (d.1, default (must_be_set d.1) (addrs !! d.2))) <$> ds.

Lemma fold_left_snoc {A B} (f : A → B → A) l b a : fold_left f (l ++ [b]) a = f (fold_left f l a) b.
Proof. by rewrite fold_left_app. Qed.

Lemma rest_inst_config rest i :
  i_config (rest_inst rest i) = writes (rest_writes rest) (i_config i) ∧
  i_ports (rest_inst rest i) = i_ports i ∧ i_expose (rest_inst rest i) = i_expose i.
Proof.
  unfold rest_inst, rest_writes. induction rest as [|a rest IH] using rev_ind; [done|].
  rewrite fold_left_snoc, omap_app, writes_app. destruct IH as (<-&<-&<-).
  destruct a as [| |k [] o|]; try done.
Qed.
Lemma tell_inst_config h asg i :
  i_config (tell_inst h asg i) = writes (tell_writes h asg) (i_config i) ∧
  i_ports (tell_inst h asg i) = i_ports i ∧ i_expose (tell_inst h asg i) = i_expose i.
Proof.
  unfold tell_inst, tell_writes. induction asg as [|a asg IH] using rev_ind; [done|].
  rewrite fold_left_snoc, fmap_app, writes_app. destruct IH as (<-&<-&<-). done.
Qed.
Lemma dial_inst_config addrs ds i :
  i_config (dial_inst addrs ds i) = writes (dial_writes addrs ds) (i_config i) ∧
  i_ports (dial_inst addrs ds i) = i_ports i ∧ i_expose (dial_inst addrs ds i) = i_expose i.
Proof.
  unfold dial_inst, dial_writes. induction ds as [|d ds IH] using rev_ind; [done|].
  rewrite fold_left_snoc, fmap_app, writes_app. destruct IH as (<-&<-&<-).
  cbn. destruct (addrs !! d.2); done.
Qed.
Lemma expose_inst_spec h bs i :
  i_config (expose_inst h bs i) = i_config i ∧ i_ports (expose_inst h bs i) = i_ports i ∧
  ∀ p, p ∈ i_expose (expose_inst h bs i) ↔ p ∈ i_expose i ∨ p ∈ port_of h <$> bs.
Proof.
  unfold expose_inst. induction bs as [|b bs IH] using rev_ind.
  - split_and!; [done..|]. set_solver.
  - rewrite fold_left_snoc, fmap_app. destruct IH as (<-&<-&IH). split_and!; [done..|].
    intros p. cbn [expose i_expose]. rewrite elem_of_union, IH, elem_of_app. set_solver.
Qed.
Definition map_ins (h : heap) (bs : list nat) (m : gmap string N) : gmap string N :=
  fold_left (λ m b, <[must_be_set (b_key (deref h b)) := port_of h b]> m) bs m.
Lemma map_inst_spec h bs i :
  i_config (map_inst h bs i) = i_config i ∧ i_expose (map_inst h bs i) = i_expose i ∧
  i_ports (map_inst h bs i) = map_ins h bs (i_ports i).
Proof.
  unfold map_inst, map_ins. induction bs as [|b bs IH] using rev_ind; [done|].
  rewrite !fold_left_snoc. destruct IH as (<-&<-&<-). done.
Qed.
Lemma map_ins_some h bs m b :
  b ∈ bs → (∀ b', b' ∈ bs → must_be_set (b_key (deref h b')) = must_be_set (b_key (deref h b)) → b' = b) →
  map_ins h bs m !! must_be_set (b_key (deref h b)) = Some (port_of h b).
Proof.
  unfold map_ins. induction bs as [|x bs IH] using rev_ind; [by intros ?%elem_of_nil|]. intros Hb Hu.
  rewrite fold_left_snoc.
  destruct (decide (must_be_set (b_key (deref h x)) = must_be_set (b_key (deref h b)))) as [E|E].
  - rewrite E, lookup_insert. rewrite (Hu x); [done|apply elem_of_app; right; left|done].
  - rewrite lookup_insert_ne by done. apply IH.
    + apply elem_of_app in Hb as [?|Hb]; [done|]. apply elem_of_list_singleton in Hb. congruence.
    + intros b' Hb'. apply Hu. apply elem_of_app. by left.
Qed.
Lemma map_ins_origin h bs m x p :
  map_ins h bs m !! x = Some p → (∃ b, b ∈ bs ∧ x = must_be_set (b_key (deref h b)) ∧ p = port_of h b) ∨ m !! x = Some p.
Proof.
  unfold map_ins. induction bs as [|b bs IH] using rev_ind; [by right|].
  rewrite fold_left_snoc. intros [[<- <-]|[? Hx]]%lookup_insert_Some; [left; exists b; set_solver|].
  destruct (IH Hx) as [(c&?&?&?)|?]; [left; exists c; set_solver|by right].
Qed.

(** The environment variable can be read back from the external address of a port mapping. *)
Lemma list_ascii_app s t : list_ascii_of_string (s +:+ t) = list_ascii_of_string s ++ list_ascii_of_string t.
Proof. induction s as [|c s IH]; [done|]. change ((String c s) +:+ t)%string with (String c (s +:+ t)). cbn. by rewrite IH. Qed.
Lemma list_ascii_inj s t : list_ascii_of_string s = list_ascii_of_string t → s = t.
Proof. intros E. rewrite <-(string_of_list_ascii_of_string s), E. apply string_of_list_ascii_of_string. Qed.
Lemma app_sep_inj (c : ascii) l1 l2 r1 r2 :
  c ∉ l1 → c ∉ l2 → l1 ++ c :: r1 = l2 ++ c :: r2 → l1 = l2.
Proof.
  revert l2. induction l1 as [|x l1 IH]; intros [|y l2] H1 H2 E; [done|..]; cbn in E.
  - injection E as <- _. set_solver.
  - injection E as -> _. set_solver.
  - injection E as <- E. f_equal. apply (IH l2); set_solver.
Qed.
Lemma must_be_set_var k k' : must_be_set k = must_be_set k' → EnvVar k = EnvVar k'.
Proof.
  intros E. apply (f_equal list_ascii_of_string) in E. unfold must_be_set in E.
  rewrite !list_ascii_app in E. apply app_inv_head in E. apply list_ascii_inj.
  eapply (app_sep_inj "?"%char); [..|exact E].
  - intros Hq. unfold EnvVar in Hq. rewrite list_ascii_of_string_of_list_ascii in Hq.
    by apply env_legal in Hq as [Hq _].
  - intros Hq. unfold EnvVar in Hq. rewrite list_ascii_of_string_of_list_ascii in Hq.
    by apply env_legal in Hq as [Hq _].
Qed.

(** ** Declarations *)
Definition declared_ok (w : dws) : Prop :=
  (∀ j, is_Some (w_args w !! j) → ∃ i, w_insts w !! CleanName j = Some i ∧ i_ports i = ∅ ∧ i_expose i = ∅) ∧
  (∀ c, is_Some (w_insts w !! c) → ∃ j, is_Some (w_args w !! j) ∧ CleanName j = c) ∧
  (∀ j j', is_Some (w_args w !! j) → is_Some (w_args w !! j') → CleanName j = CleanName j' → j = j').

Lemma declare_ok w n im b args w' : declared_ok w → declare w n im b args = Some w' → declared_ok w'.
Proof.
  intros (D1&D2&D3). unfold declare. destruct (w_insts w !! CleanName n) eqn:E; [done|]. intros [= <-].
  assert (Hfresh : ∀ j, is_Some (w_args w !! j) → CleanName j ≠ CleanName n).
  { intros j Hj Hc. destruct (D1 _ Hj) as (i&Hi&_). congruence. }
  split_and!; cbn.
  - intros j Hj. destruct (decide (j = n)) as [->|Hne].
    + exists (new_inst im b). by rewrite lookup_insert.
    + rewrite lookup_insert_ne in Hj by done. rewrite lookup_insert_ne by (intros ?; by apply (Hfresh j)).
      by apply D1.
  - intros c [<-|Hc]%lookup_insert_is_Some'.
    + exists n. by rewrite lookup_insert.
    + destruct (D2 _ Hc) as (j&Hj&<-). exists j. split; [|done]. apply lookup_insert_is_Some'. by right.
  - intros j j' [<-|Hj]%lookup_insert_is_Some' [<-|Hj']%lookup_insert_is_Some' Heq; [done|..].
    + by destruct (Hfresh j').
    + by destruct (Hfresh j).
    + by apply D3.
Qed.
Lemma do_op_ok w o w' : declared_ok w → do_op w o = Some w' → declared_ok w'.
Proof.
  intros HD. destruct o; cbn; [by apply declare_ok|by apply declare_ok|..].
  - destruct (bool_decide _) eqn:E; [|done]. intros [= <-]. destruct HD as (D1&D2&D3).
    unfold upd_inst. split_and!; cbn; [..|done].
    + intros j Hj. destruct (D1 _ Hj) as (i&Hi&?&?).
      destruct (decide (CleanName name = CleanName j)) as [Hc|Hc].
      * rewrite Hc, lookup_alter, Hi. eexists. done.
      * rewrite lookup_alter_ne by done. eauto.
    + intros c Hc. apply D2. revert Hc. rewrite !lookup_alter_is_Some. done.
  - destruct (bool_decide _); [|done]. by intros [= <-].
Qed.
Lemma do_ops_ok w os w' : declared_ok w → do_ops w os = Some w' → declared_ok w'.
Proof.
  revert w. induction os as [|o os IH]; intros w HD; cbn; [by intros [= <-]|].
  destruct (do_op w o) as [w1|] eqn:E; [|done]. apply IH. by eapply do_op_ok.
Qed.
Lemma dws0_ok : declared_ok dws0.
Proof.
  split_and!; cbn; intros *.
  - rewrite lookup_empty. by intros [].
  - rewrite lookup_empty. by intros [].
  - rewrite lookup_empty. by intros [].
Qed.

Lemma elem_binds args b : b ∈ binds_of args ↔ ABind b ∈ args.
Proof.
  unfold binds_of. rewrite elem_of_list_omap. split; [|intros; eexists; done].
  intros ([]&?&?); by simplify_eq.
Qed.
Lemma elem_dials args k a : (k, a) ∈ dials_of args ↔ ADial k a ∈ args.
Proof.
  unfold dials_of. rewrite elem_of_list_omap. split; [|intros; eexists; done].
  intros ([]&?&?); by simplify_eq.
Qed.
Lemma elem_rest_writes args k s :
  (k, s) ∈ rest_writes (rest_of args) ↔ ∃ opt, AConf k false opt ∈ args ∧ s = if opt then or_empty k else must_be_set k.
Proof.
  unfold rest_writes, rest_of. rewrite elem_of_list_omap. split.
  - intros (a&Ha&He). apply elem_of_list_omap in Ha as (a'&Ha'&E'). destruct a'; simplify_eq; try done.
    destruct has_value; simplify_eq. eauto.
  - intros (opt&Ha&->). exists (AConf k false opt). split; [|done]. apply elem_of_list_omap. eauto.
Qed.

Lemma shown_env_eq i : shown_env i = i_config i.
Proof. unfold shown_env. by destruct (decide (i_config i = ∅)). Qed.
Lemma shown_ports_eq i : shown_ports i = i_ports i.
Proof. unfold shown_ports. by destruct (decide (i_ports i = ∅)). Qed.

Section final.
  Context (f : nat) (h : heap) (w : dws) (o1 o2 : list string) (m : gmap string inst).
  Context (HD : declared_ok w) (Hok : deployment_ok h w).
  Context (Ho1 : range_order (w_args w) o1) (Ho2 : range_order (w_args w) o2).
  Context (Hfin : finish f h w o1 o2 = DOk m).
  Notation A := (args_at (w_args w)).
  Notation H := (heap_at f h (w_args w)).

  Lemma args_at_some j args : w_args w !! j = Some args → A j = args.
  Proof. intros E. unfold args_at. by rewrite E. Qed.
  Lemma binds_has j b : b ∈ binds_of (A j) → has_arg w j (ABind b).
  Proof.
    clear. unfold args_at. destruct (w_args w !! j) as [args|] eqn:E; cbn [default]; [|by intros ?%elem_of_nil].
    intros Hb. exists args. split; [done|]. by apply elem_binds.
  Qed.
  Lemma heap_in n b : b ∈ binds_of (A n) → is_Some (h !! b).
  Proof using Hok. intros Hb. exact (proj1 Hok _ _ (binds_has _ _ Hb)). Qed.
  Lemma binds_disj n n' b : b ∈ binds_of (A n) → b ∈ binds_of (A n') → n = n'.
  Proof using Hok. intros Hb Hb'. exact (proj1 (proj2 Hok) _ _ _ (binds_has _ _ Hb) (binds_has _ _ Hb')). Qed.

  Lemma finish_state :
    (∀ n, n ∈ o1 → ok_at f h (w_args w) n) ∧
    m = fold_left (λ m n, upd_inst (dial_inst (addrs1 f h (w_args w) o1 ∅) (dials_of (A n))) n m) o2
          (insts1 f h (w_args w) o1 (w_insts w)).
  Proof using Hok Ho1 Ho2 Hfin.
    unfold finish in Hfin. destruct Ho1 as [Hnd1 _].
    pose proof (phase1_spec f h (w_args w) heap_in binds_disj o1 (Dstate h ∅ (w_insts w)) Hnd1) as Hp.
    feed specialize Hp; [done|].
    destruct (phase1 f (w_args w) o1 _) as [s| |]; [|done..].
    destruct Hp as (Hoks&Hi&Ha). split; [done|]. injection Hfin as <-. unfold phase2. cbn in Hi, Ha.
    rewrite <-Ha, <-Hi. unfold args_at. revert Ho2. clear. intros _.
    generalize (s_insts s). induction o2 as [|n o IH]; intros x; [done|]. cbn [fold_left].
    by rewrite set_dials_spec.
  Qed.

  Notation addrs := (addrs1 f h (w_args w) o1 ∅).
  Lemma finish_inst j :
    is_Some (w_args w !! j) →
    ok_at f h (w_args w) j ∧
    ∃ i, w_insts w !! CleanName j = Some i ∧
      m !! CleanName j = Some (dial_inst addrs (dials_of (A j)) (inst1 f h (w_args w) j i)).
  Proof using HD Hok Ho1 Ho2 Hfin.
    intros Hj. destruct finish_state as [Hoks ->].
    destruct Ho1 as [Hnd1 He1], Ho2 as [Hnd2 He2]. destruct HD as (D1&D2&D3).
    split; [by apply Hoks, He1|]. destruct (D1 _ Hj) as (i&Hi&_). exists i. split; [done|].
    pose proof (fold_upd_lookup (λ n, dial_inst addrs (dials_of (A n))) o2 (insts1 f h (w_args w) o1 (w_insts w)) Hnd2) as [L2 _].
    { intros n n' Hn Hn'. apply D3; by apply He2. }
    rewrite L2 by by apply He2.
    unfold insts1.
    pose proof (fold_upd_lookup (λ n, inst1 f h (w_args w) n) o1 (w_insts w) Hnd1) as [L1 _].
    { intros n n' Hn Hn'. apply D3; by apply He1. }
    rewrite L1 by by apply He1. by rewrite Hi.
  Qed.

  Lemma finish_dom c : is_Some (m !! c) ↔ ∃ j, is_Some (w_args w !! j) ∧ CleanName j = c.
  Proof using HD Hok Ho1 Ho2 Hfin.
    split.
    - intros Hc. destruct HD as (D1&D2&D3). apply D2.
      destruct (decide (Exists (λ n, CleanName n = c) o1)) as [He|He].
      + apply Exists_exists in He as (n&Hn&<-). destruct (D1 n) as (i&Hi&_); [by apply Ho1|]. by rewrite Hi.
      + destruct finish_state as [_ Hm]. rewrite Hm in Hc.
        destruct Ho1 as [Hnd1 He1], Ho2 as [Hnd2 He2].
        assert (Hno : ∀ n, is_Some (w_args w !! n) → CleanName n ≠ c).
        { intros n Hn E. apply He, Exists_exists. exists n. split; [by apply He1|done]. }
        pose proof (fold_upd_lookup (λ n, dial_inst addrs (dials_of (A n))) o2 (insts1 f h (w_args w) o1 (w_insts w)) Hnd2) as [_ L2].
        { intros n n' Hn Hn'. apply D3; by apply He2. }
        rewrite L2 in Hc by (intros; apply Hno, He2; done).
        unfold insts1 in Hc.
        pose proof (fold_upd_lookup (λ n, inst1 f h (w_args w) n) o1 (w_insts w) Hnd1) as [_ L1].
        { intros n n' Hn Hn'. apply D3; by apply He1. }
        rewrite L1 in Hc by (intros; apply Hno, He1; done). done.
    - intros (j&Hj&<-). destruct (finish_inst j Hj) as (_&i&_&->). done.
  Qed.

  Lemma inst_config j i :
    i_config (dial_inst addrs (dials_of (A j)) (inst1 f h (w_args w) j i)) =
    writes (rest_writes (rest_of (A j)) ++ tell_writes (H j) (asg_at f h (w_args w) j) ++
            dial_writes addrs (dials_of (A j))) (i_config i) ∧
    i_ports (dial_inst addrs (dials_of (A j)) (inst1 f h (w_args w) j i)) = map_ins (H j) (binds_of (A j)) (i_ports i) ∧
    ∀ p, p ∈ i_expose (dial_inst addrs (dials_of (A j)) (inst1 f h (w_args w) j i)) ↔
         p ∈ i_expose i ∨ p ∈ port_of (H j) <$> binds_of (A j).
  Proof.
    set (i1 := inst1 f h (w_args w) j i).
    destruct (dial_inst_config addrs (dials_of (A j)) i1) as (->&->&->).
    unfold i1, inst1, ports_inst.
    set (i2 := rest_inst (rest_of (A j)) i).
    set (i3 := tell_inst (H j) (asg_at f h (w_args w) j) i2).
    set (i4 := expose_inst (H j) (binds_of (A j)) i3).
    destruct (map_inst_spec (H j) (binds_of (A j)) i4) as (->&->&->).
    destruct (expose_inst_spec (H j) (binds_of (A j)) i3) as (E1&E2&E3). fold i4 in E1, E2, E3.
    destruct (tell_inst_config (H j) (asg_at f h (w_args w) j) i2) as (T1&T2&T3). fold i3 in T1, T2, T3.
    destruct (rest_inst_config (rest_of (A j)) i) as (R1&R2&R3). fold i2 in R1, R2, R3.
    split_and!.
    - rewrite E1, T1, R1, !writes_app. done.
    - by rewrite E2, T2, R2.
    - intros p. rewrite E3, T3, R3. done.
  Qed.

  Lemma heap_facts j :
    is_Some (w_args w !! j) →
    asg_at f h (w_args w) j = unset h (binds_of (A j)) ∧
    (∀ b, b ∈ binds_of (A j) → b_key (deref (H j) b) = b_key (deref h b) ∧ b_addr (deref (H j) b) = b_addr (deref h b)) ∧
    (∀ b, b ∈ binds_of (A j) → port_of h b ≠ 0%N → port_of (H j) b = port_of h b) ∧
    (∀ b b', b ∈ binds_of (A j) → b' ∈ binds_of (A j) → b ≠ b' → port_of (H j) b ≠ port_of (H j) b').
  Proof using HD Hok Ho1 Ho2 Hfin.
    intros Hj. destruct (finish_inst j Hj) as [(_&g&p&a&Ea) _].
    unfold heap_at, asg_at. rewrite Ea.
    apply assign_ports_ok in Ea as (Hpre&Hasg&Hp&Hd&_&Hk&_); [|apply heap_in].
    split_and!; [done|..].
    - intros b _. destruct (Hk b) as (?&?&_). done.
    - intros b Hb Hn. apply Hp. rewrite Hpre. apply elem_of_list_filter. done.
    - done.
  Qed.

  Definition final_port (b : nat) : N :=
    match list_find (λ j, b ∈ binds_of (A j)) o1 with Some (_, j) => port_of (H j) b | None => 0%N end.
  Lemma final_port_eq j b : is_Some (w_args w !! j) → b ∈ binds_of (A j) → final_port b = port_of (H j) b.
  Proof using Hok Ho1.
    intros Hj Hb. unfold final_port. destruct (list_find _ o1) as [[x y]|] eqn:E.
    - apply list_find_Some in E as (_&Hb'&_). by rewrite (binds_disj _ _ _ Hb Hb').
    - apply list_find_None in E. rewrite Forall_forall in E. destruct (E j); [by apply Ho1|done].
  Qed.

  Theorem finish_correct :
    ∃ port : nat → N,
      (∀ c, is_Some (m !! c) ↔ ∃ j, is_Some (w_args w !! j) ∧ CleanName j = c) ∧
      ∀ j args, w_args w !! j = Some args →
      ∃ i0 i, w_insts w !! CleanName j = Some i0 ∧ m !! CleanName j = Some i ∧
        (∀ b, ABind b ∈ args →
           port b ∈ shown_expose i ∧
           shown_ports i !! must_be_set (b_key (deref h b)) = Some (port b) ∧
           (port_of h b ≠ 0%N → port b = port_of h b) ∧
           (port_of h b = 0%N → shown_env i !! EnvVar (b_key (deref h b)) = Some (host_port "0.0.0.0" (port b)))) ∧
        (∀ b b', ABind b ∈ args → ABind b' ∈ args → b ≠ b' → port b ≠ port b') ∧
        (∀ k a, ADial k a ∈ args →
           (∃ j' b, has_arg w j' (ABind b) ∧ b_addr (deref h b) = a ∧
                    shown_env i !! EnvVar k = Some (host_port (CleanName j') (port b))) ∨
           ((¬ ∃ j' b, has_arg w j' (ABind b) ∧ b_addr (deref h b) = a) ∧
            shown_env i !! EnvVar k = Some (must_be_set k))) ∧
        (∀ k opt, AConf k false opt ∈ args →
           shown_env i !! EnvVar k = Some (if opt then or_empty k else must_be_set k)) ∧
        (∀ p, p ∈ shown_expose i → ∃ b, ABind b ∈ args ∧ p = port b) ∧
        (∀ v, (∀ a n, a ∈ args → arg_name h a = Some n → EnvVar n ≠ v) → shown_env i !! v = i_config i0 !! v).
  Proof using HD Hok Ho1 Ho2 Hfin.
    exists final_port. split; [exact finish_dom|]. intros j args Hargs.
    assert (Hj : is_Some (w_args w !! j)) by by rewrite Hargs.
    destruct (finish_inst j Hj) as (_&i&Hi&Hm).
    exists i, (dial_inst addrs (dials_of (A j)) (inst1 f h (w_args w) j i)). split; [done|]. split; [done|].
    rewrite shown_env_eq, shown_ports_eq.
    pose proof (args_at_some _ _ Hargs) as HA.
    destruct (inst_config j i) as (Hc&Hp&He).
    destruct (heap_facts j Hj) as (Hasg&Hkey&Hpre&Hdis).
    destruct HD as (D1&_). destruct (D1 _ Hj) as (i'&Hi'&Hi1&Hi2).
    assert (i' = i) as -> by congruence. clear Hi'.
    destruct Hok as (_&_&Hnames).
    assert (Hport : ∀ b, ABind b ∈ args → final_port b = port_of (H j) b).
    { intros b Hb. apply final_port_eq; [done|]. rewrite HA. by apply elem_binds. }
    (* who writes a variable *)
    assert (Hwr : ∀ k s, (k, s) ∈ rest_writes (rest_of (A j)) ++ tell_writes (H j) (asg_at f h (w_args w) j) ++
            dial_writes addrs (dials_of (A j)) →
          (∃ opt, AConf k false opt ∈ args ∧ s = if opt then or_empty k else must_be_set k) ∨
          (∃ b, ABind b ∈ args ∧ port_of h b = 0%N ∧ k = b_key (deref h b) ∧ s = host_port "0.0.0.0" (port_of (H j) b)) ∨
          (∃ a, ADial k a ∈ args ∧ s = default (must_be_set k) (addrs !! a))).
    { intros k s. rewrite HA. intros [Hw|[Hw|Hw]%elem_of_app]%elem_of_app.
      - left. by apply elem_rest_writes.
      - right; left. unfold tell_writes in Hw. apply elem_of_list_fmap in Hw as (b&Hw&Hb).
        injection Hw as -> ->. rewrite Hasg, HA in Hb. apply elem_of_list_filter in Hb as [Hz Hb].
        exists b. split_and!; [by apply elem_binds|done| |done]. apply Hkey. by rewrite HA.
      - right; right. unfold dial_writes in Hw. apply elem_of_list_fmap in Hw as ([k' a]&Hw&Hd).
        cbn in Hw. injection Hw as -> ->. exists a. split; [by apply elem_dials|done]. }
    assert (Hself : ∀ a, a ∈ args → has_arg w j a) by (intros a Ha; exists args; done).
    assert (Huniq : ∀ a a' n n', a ∈ args → a' ∈ args → arg_name h a = Some n → arg_name h a' = Some n' → EnvVar n = EnvVar n' → a = a').
    { intros a a' n n' Ha Ha'. apply (Hnames j); auto. }
    split_and!.
    - intros b Hb. rewrite (Hport b Hb).
      assert (Hb' : b ∈ binds_of (A j)) by (rewrite HA; by apply elem_binds).
      destruct (Hkey b Hb') as [Hk _].
      assert (Hpm : i_ports (dial_inst addrs (dials_of (A j)) (inst1 f h (w_args w) j i)) !! must_be_set (b_key (deref h b)) = Some (port_of (H j) b)).
      { rewrite Hp, <-Hk. apply map_ins_some; [done|].
        intros b' Hb2 Hs. apply must_be_set_var in Hs. rewrite Hk in Hs.
        destruct (Hkey b' Hb2) as [Hk2 _]. rewrite Hk2 in Hs. rewrite HA in Hb2. apply elem_binds in Hb2.
        specialize (Huniq _ _ _ _ Hb2 Hb eq_refl eq_refl Hs). by injection Huniq. }
      split_and!.
      + unfold shown_expose. destruct (decide _) as [E|_].
        * by rewrite E, lookup_empty in Hpm.
        * apply He. right. apply elem_of_list_fmap. eauto.
      + done.
      + by apply Hpre.
      + intros Hz. rewrite Hc. apply writes_some.
        * exists (b_key (deref h b)). split; [|done]. rewrite !elem_of_app. right; left.
          unfold tell_writes. apply elem_of_list_fmap. exists b. rewrite Hk. split; [done|].
          rewrite Hasg. apply elem_of_list_filter. done.
        * intros k s Hw Hv. destruct (Hwr _ _ Hw) as [(opt&Ha&->)|[(b2&Ha&_&->&->)|(a&Ha&->)]].
          -- specialize (Huniq _ _ _ _ Ha Hb eq_refl eq_refl Hv). done.
          -- specialize (Huniq _ _ _ _ Ha Hb eq_refl eq_refl Hv). by injection Huniq as ->.
          -- specialize (Huniq _ _ _ _ Ha Hb eq_refl eq_refl Hv). done.
    - intros b b' Hb Hb' Hne. rewrite (Hport b Hb), (Hport b' Hb').
      apply Hdis; [..|done]; rewrite HA; by apply elem_binds.
    - intros k a Hd.
      assert (Hval : i_config (dial_inst addrs (dials_of (A j)) (inst1 f h (w_args w) j i)) !! EnvVar k = Some (default (must_be_set k) (addrs !! a))).
      { rewrite Hc. apply writes_some.
        - exists k. split; [|done]. rewrite !elem_of_app. right; right. unfold dial_writes.
          apply elem_of_list_fmap. exists (k, a). split; [done|]. rewrite HA. by apply elem_dials.
        - intros k' s Hw Hv. destruct (Hwr _ _ Hw) as [(opt&Ha&->)|[(b2&Ha&_&->&->)|(a'&Ha&->)]].
          -- specialize (Huniq _ _ _ _ Ha Hd eq_refl eq_refl Hv). done.
          -- specialize (Huniq _ _ _ _ Ha Hd eq_refl eq_refl Hv). done.
          -- specialize (Huniq _ _ _ _ Ha Hd eq_refl eq_refl Hv). by injection Huniq as -> ->. }
      destruct (addrs1_spec f h (w_args w) o1 ∅) as (S1&S2&_).
      destruct (addrs !! a) as [v|] eqn:Ead; cbn [default] in Hval.
      + left. destruct (S1 _ _ Ead) as [(n&b&Hn&Hb&Hba&->)|He0]; [|by rewrite lookup_empty in He0].
        assert (Hn' : is_Some (w_args w !! n)) by by apply Ho1.
        exists n, b. split_and!.
        * by apply binds_has.
        * destruct (heap_facts n Hn') as (_&Hk&_). destruct (Hk b Hb) as [_ <-]. done.
        * by rewrite (final_port_eq n b).
      + right. split; [|done]. intros (j'&b&(args'&Hj'&Hb)&Hba).
        assert (Hn' : is_Some (w_args w !! j')) by by rewrite Hj'.
        assert (Hb' : b ∈ binds_of (A j')) by (rewrite (args_at_some _ _ Hj'); by apply elem_binds).
        destruct (heap_facts j' Hn') as (_&Hk&_). destruct (Hk b Hb') as [_ Hk'].
        destruct (S2 j' b) as [x Hx]; [by apply Ho1|done|]. rewrite Hk', Hba, Ead in Hx. done.
    - intros k opt Ha. rewrite Hc. apply writes_some.
      + exists k. split; [|done]. rewrite !elem_of_app. left. rewrite HA. apply elem_rest_writes. eauto.
      + intros k' s Hw Hv. destruct (Hwr _ _ Hw) as [(opt'&Ha'&->)|[(b2&Ha'&_&->&->)|(a'&Ha'&->)]].
        * specialize (Huniq _ _ _ _ Ha' Ha eq_refl eq_refl Hv). by injection Huniq as -> ->.
        * specialize (Huniq _ _ _ _ Ha' Ha eq_refl eq_refl Hv). done.
        * specialize (Huniq _ _ _ _ Ha' Ha eq_refl eq_refl Hv). done.
    - intros p Hpx. unfold shown_expose in Hpx. destruct (decide _); [set_solver|].
      apply He in Hpx as [Hpx|Hpx]; [rewrite Hi2 in Hpx; set_solver|].
      apply elem_of_list_fmap in Hpx as (b&->&Hb). rewrite HA in Hb. apply elem_binds in Hb.
      exists b. split; [done|]. by rewrite Hport.
    - intros v Hv. rewrite Hc. apply writes_none. intros k s Hw.
      destruct (Hwr _ _ Hw) as [(opt&Ha&->)|[(b2&Ha&_&->&->)|(a&Ha&->)]]; by apply (Hv _ _ Ha).
  Qed.
End final.

Lemma addrs_perm f h w o1 o1' :
  deployment_ok h w → addresses_unique h w →
  range_order (w_args w) o1 → range_order (w_args w) o1' →
  (∀ n, n ∈ o1 → ok_at f h (w_args w) n) →
  addrs1 f h (w_args w) o1 ∅ = addrs1 f h (w_args w) o1' ∅.
Proof.
  intros Hok Hu Ho1 Ho1' Hoks.
  assert (Hkey : ∀ n b, is_Some (w_args w !! n) → b ∈ binds_of (args_at (w_args w) n) →
     b_addr (deref (heap_at f h (w_args w) n) b) = b_addr (deref h b)).
  { intros n b Hn Hb. destruct (Hoks n) as (_&g&p&a&Ea); [by apply Ho1|].
    unfold heap_at. rewrite Ea. apply assign_ports_ok in Ea as (_&_&_&_&_&Hk&_); [apply Hk|].
    intros c Hc. by eapply heap_in. }
  destruct (addrs1_spec f h (w_args w) o1 ∅) as (S1&S2&_).
  destruct (addrs1_spec f h (w_args w) o1' ∅) as (S1'&S2'&_).
  apply map_eq. intros x.
  destruct (addrs1 f h (w_args w) o1 ∅ !! x) as [v|] eqn:E.
  - destruct (S1 _ _ E) as [(n&b&Hn&Hb&Ha&->)|He]; [|by rewrite lookup_empty in He].
    assert (Hn1 : is_Some (w_args w !! n)) by by apply Ho1.
    destruct (S2' n b) as [v' Hv']; [by apply Ho1'|done|]. rewrite Ha in Hv'. rewrite Hv'. f_equal.
    destruct (S1' _ _ Hv') as [(n'&b'&Hn'&Hb'&Ha'&->)|He]; [|by rewrite lookup_empty in He].
    assert (Hn1' : is_Some (w_args w !! n')) by by apply Ho1'.
    rewrite Hkey in Ha, Ha' by done.
    assert (b = b') as <-. { eapply (Hu n n'); [by apply binds_has..|congruence]. }
    by rewrite (binds_disj h w Hok n n' b).
  - destruct (addrs1 f h (w_args w) o1' ∅ !! x) as [v|] eqn:E'; [|done]. exfalso.
    destruct (S1' _ _ E') as [(n&b&Hn&Hb&Ha&->)|He]; [|by rewrite lookup_empty in He].
    assert (Hn1 : is_Some (w_args w !! n)) by by apply Ho1'.
    destruct (S2 n b) as [v' Hv']; [by apply Ho1|done|]. rewrite Ha, E in Hv'. done.
Qed.

Theorem finish_order_independent f h w o1 o2 o1' o2' m :
  declared_ok w → deployment_ok h w → addresses_unique h w →
  range_order (w_args w) o1 → range_order (w_args w) o2 →
  range_order (w_args w) o1' → range_order (w_args w) o2' →
  finish f h w o1 o2 = DOk m → finish f h w o1' o2' = DOk m.
Proof.
  intros HD Hok Hu Ho1 Ho2 Ho1' Ho2' Hf.
  destruct (finish_state f h w o1 o2 m Hok Ho1 Ho2 Hf) as [Hoks _].
  assert (∃ m', finish f h w o1' o2' = DOk m') as [m' Hf'].
  { unfold finish.
    pose proof (phase1_spec f h (w_args w) (heap_in h w Hok) (binds_disj h w Hok) o1' (Dstate h ∅ (w_insts w)) (proj1 Ho1')) as Hp.
    feed specialize Hp; [done|].
    destruct (phase1 f (w_args w) o1' _) as [s| |]; [eauto|exfalso..].
    - destruct Hp as (n&Hn&Hbad). destruct (Hoks n) as (Hr&g&p&a&Ea); [by apply Ho1, Ho1'|].
      destruct Hbad as [?|(x&y&?)]; congruence.
    - destruct Hp as (n&Hn&Hbad). destruct (Hoks n) as (Hr&g&p&a&Ea); [by apply Ho1, Ho1'|]. congruence. }
  rewrite Hf'. f_equal. apply map_eq. intros c.
  pose proof (finish_dom f h w o1 o2 m HD Hok Ho1 Ho2 Hf c) as Hd.
  pose proof (finish_dom f h w o1' o2' m' HD Hok Ho1' Ho2' Hf' c) as Hd'.
  destruct (m !! c) as [i|] eqn:E.
  - destruct Hd as [Hd _]. destruct Hd as (j&Hj&<-); [done|].
    destruct (finish_inst f h w o1 o2 m HD Hok Ho1 Ho2 Hf j Hj) as (_&i0&Hi0&Hm).
    destruct (finish_inst f h w o1' o2' m' HD Hok Ho1' Ho2' Hf' j Hj) as (_&i0'&Hi0'&Hm').
    rewrite Hm', <-E, Hm. rewrite (addrs_perm f h w o1 o1') by done. congruence.
  - destruct (m' !! c) as [i|]; [|done]. destruct Hd as [_ Hd]. destruct Hd' as [Hd' _].
    destruct Hd; [by apply Hd'|done].
Qed.

Lemma ok_rest_bad args : ok_rest (rest_of args) = false ↔ ABad ∈ args.
Proof.
  unfold ok_rest, rest_of. induction args as [|a args IH]; [cbn; split; [done|by intros ?%elem_of_nil]|].
  rewrite elem_of_cons. destruct a; cbn.
  - rewrite IH. split; [by right|]. by intros [?|?].
  - rewrite IH. split; [by right|]. by intros [?|?].
  - rewrite IH. split; [by right|]. by intros [?|?].
  - split; [by left|done].
Qed.

Theorem finish_errors f h w o1 o2 :
  deployment_ok h w → range_order (w_args w) o1 →
  (finish f h w o1 o2 = DErr → ∃ j, unusable h w j) ∧
  ((∃ j, unusable h w j) → ∀ m, finish f h w o1 o2 ≠ DOk m).
Proof.
  intros Hok Ho1. unfold finish.
  pose proof (phase1_spec f h (w_args w) (heap_in h w Hok) (binds_disj h w Hok) o1 (Dstate h ∅ (w_insts w)) (proj1 Ho1)) as Hp.
  feed specialize Hp; [done|].
  assert (Hbad : ∀ n args, w_args w !! n = Some args → args_at (w_args w) n = args) by (intros n args E; by apply args_at_some).
  destruct (phase1 f (w_args w) o1 _) as [s| |]; (split; [|]); try done.
  - intros (j&Hj) m _. destruct Hp as (Hoks&_).
    destruct Hj as [(args&Ha&Hb)|(args&Ha&Hb)].
    + destruct (Hoks j) as [Hr _]; [by apply Ho1|]. rewrite (Hbad _ _ Ha) in Hr.
      apply ok_rest_bad in Hb. congruence.
    + destruct (Hoks j) as (_&g&p&a&Ea); [by apply Ho1|]. rewrite (Hbad _ _ Ha) in Ea.
      apply (proj1 (assign_ports_conflict f h _)) in Hb as (x&y&Hc). congruence.
  - intros _. destruct Hp as (n&Hn&Hb). apply Ho1 in Hn as [args Ha]. rewrite (Hbad _ _ Ha) in Hb.
    exists n. destruct Hb as [Hb|Hb].
    + left. exists args. split; [done|]. by apply ok_rest_bad.
    + right. exists args. split; [done|]. by apply (proj1 (assign_ports_conflict f h _)).
Qed.

Theorem finish_terminates h w o1 o2 f :
  deployment_ok h w → range_order (w_args w) o1 →
  (∀ j args b, w_args w !! j = Some args → ABind b ∈ args → port_of h b = 0%N →
     (start_port h b + N.of_nat (length (binds_of args)) ≤ 65536)%N) →
  (∀ j args, w_args w !! j = Some args → length (binds_of args) ≤ f) →
  finish f h w o1 o2 ≠ DHang.
Proof.
  intros Hok Ho1 Hroom Hf. unfold finish.
  pose proof (phase1_spec f h (w_args w) (heap_in h w Hok) (binds_disj h w Hok) o1 (Dstate h ∅ (w_insts w)) (proj1 Ho1)) as Hp.
  feed specialize Hp; [done|].
  destruct (phase1 f (w_args w) o1 _) as [s| |]; try done. destruct Hp as (n&Hn&Hb).
  apply Ho1 in Hn as [args Ha]. rewrite (args_at_some _ _ _ Ha) in Hb.
  destruct (decide (NoDup (port_of h <$> preset h (binds_of args)))) as [Hnd|Hnd].
  - destruct (assign_ports_terminates h (binds_of args)) as (h'&p&a&Hx&_); [..|exact Hnd| |].
    + intros b Hx. apply (heap_in h w Hok n). by rewrite (args_at_some _ _ _ Ha).
    + intros b [Hz Hx]%elem_of_list_filter. eapply Hroom; [done| |done]. by apply elem_binds.
    + rewrite Hx in Hb by (by eapply Hf). done.
  - apply (proj1 (assign_ports_conflict f h _)) in Hnd as (x&y&Hc). congruence.
Qed.
