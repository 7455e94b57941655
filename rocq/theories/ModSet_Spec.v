(** * Specification for module sets *)
From Verif Require Export ModSet_Model.
Set Default Proof Using "Type".

(** What a set contains: under a directory, and under a name *)
Definition under_dir (w : world) (i : nat) (d : string) (m : nat) : Prop := ∃ s, w_sets w !! i = Some s ∧ ms_dirs s !! d = Some m.
Definition under_name (w : world) (i : nat) (n : string) (m : nat) : Prop := ∃ s, w_sets w !! i = Some s ∧ ms_modules s !! n = Some m.
(** What a module says about itself *)
Definition called (w : world) (m : nat) (n : string) : Prop := pm_name <$> w_heap w !! m = Some n.
Definition read_from (w : world) (m : nat) (d : string) : Prop := pm_dir <$> w_heap w !! m = Some d.
Definition has_pkg (w : world) (m : nat) (name : string) (p : nat) : Prop := ∃ x, w_heap w !! m = Some x ∧ pm_pkgs x !! name = Some p.
Definition is_local (w : world) (m : nat) (b : bool) : Prop := pm_local <$> w_heap w !! m = Some b.

(** The sets consulted for set [i]: itself, its parent, and so on to one without *)
Inductive chain (w : world) : nat → list nat → Prop :=
| chain_root i s : w_sets w !! i = Some s → ms_parent s = None → chain w i [i]
| chain_up i s j l : w_sets w !! i = Some s → ms_parent s = Some j → chain w j l → chain w i (i :: l).

(** A package called [name] in some module of set [i] *)
Definition offers (w : world) (i : nat) (name : string) (m p : nat) : Prop := ∃ n, under_name w i n m ∧ has_pkg w m name p.
(** [k] is the first set of the list that has the package *)
Definition nearest (w : world) (l : list nat) (name : string) (k : nat) : Prop :=
  ∃ l1 l2, l = l1 ++ k :: l2 ∧ (∃ m p, offers w k name m p) ∧ ∀ j m p, j ∈ l1 → ¬ offers w j name m p.

(** Every module's packages are called like the module or below it (parser.go:199-203) *)
Definition fs_ok (fs : fsys) : Prop := ∀ d n ps name, fs d = Some (n, ps) → is_Some (ps !! name) → ∃ r, name = (n +:+ r)%string.
Definition order_ok (ord : nat → list (string * nat) → list (string * nat)) : Prop := ∀ i l, ord i l ≡ₚ l.
Definition op_ok (o : mop) : Prop :=
  match o with Files fs => fs_ok fs | GetPkg _ _ ord _ => order_ok ord | _ => True end.
(** Histories as they happen: files as above, and loops that visit every entry *)
Definition reachable (clean : string → string) (w : world) : Prop :=
  ∃ fs os, fs_ok fs ∧ Forall op_ok os ∧ w = mrun clean (world0 fs) os.
(** Cleaning a path twice is cleaning it once *)
Definition clean_ok (clean : string → string) : Prop := ∀ d, clean (clean d) = clean d.

(** Nobody has parsed the directory yet *)
Definition unseen (w : world) (d : string) : Prop := ∀ m, ¬ read_from w m d.
(** No two parsed directories hold a module of the same name *)
Definition names_unique (w : world) : Prop := ∀ m m' n, called w m n → called w m' n → m = m'.
