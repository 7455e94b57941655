(** * Model of name mangling: blueprint/pkg/blueprint/stringutil/{name,indent}.go,
      plugins/linux/util.go and its runtime copy runtime/plugins/golang/namespace.go:145-168

    Go strings are byte strings: a string is a list of bytes ([ascii]).  The regular expression in
    name.go:16 works on runes, but it matches every rune outside ASCII and every invalid byte, so
    replacing runs of bytes is the same as replacing runs of runes. *)
From stdpp Require Export strings gmap.
From Coq Require Export Ascii.
Set Default Proof Using "Type".

Definition bytes := list ascii.

Definition code (c : ascii) : N := N_of_ascii c.
Definition is_digit (c : ascii) : bool := (48 <=? code c)%N && (code c <=? 57)%N.
Definition is_upper (c : ascii) : bool := (65 <=? code c)%N && (code c <=? 90)%N.
Definition is_lower (c : ascii) : bool := (97 <=? code c)%N && (code c <=? 122)%N.
Definition is_space (c : ascii) : bool := (code c =? 32)%N.
Definition underscore : ascii := "_"%char.

(** The class [a-zA-Z0-9 ] whose complement name.go:16 replaces. *)
Definition kept (c : ascii) : bool := is_lower c || is_upper c || is_digit c || is_space c.

(** name.go:25: replace each maximal run of other bytes by one underscore.  [inrun] tells that
    the previous byte was replaced too. *)
Fixpoint replace_runs (inrun : bool) (s : bytes) : bytes :=
  match s with
  | [] => []
  | c :: r =>
      if kept c then c :: replace_runs false r
      else if inrun then replace_runs true r
      else underscore :: replace_runs true r
  end.

(** name.go:26-33: strip leading digits ([strconv.Atoi] of a one-byte string succeeds exactly on
    digits: a sign alone is an error). *)
Fixpoint strip_digits (s : bytes) : bytes :=
  match s with
  | [] => []
  | c :: r => if is_digit c then strip_digits r else s
  end.

(** name.go:24-34 [CleanName]. *)
Definition clean_name (s : bytes) : bytes := strip_digits (replace_runs false s).

(** strings.ToUpper / ToLower on the ASCII strings [CleanName] yields. *)
Definition to_upper_c (c : ascii) : ascii := if is_lower c then ascii_of_N (code c - 32) else c.
Definition to_lower_c (c : ascii) : ascii := if is_upper c then ascii_of_N (code c + 32) else c.

(** plugins/linux/util.go:17-19 [EnvVar], 24-26 [FuncName]. *)
Definition env_var (s : bytes) : bytes := to_upper_c <$> clean_name s.
Definition func_name (s : bytes) : bytes := to_lower_c <$> clean_name s.

(** runtime/plugins/golang/namespace.go:145-168: the copy of EnvVar used at run time. *)
Definition runtime_clean_name (s : bytes) : bytes := strip_digits (replace_runs false s).
Definition runtime_env_var (s : bytes) : bytes := to_upper_c <$> runtime_clean_name s.

(** strings.CutSuffix. *)
Definition cut_suffix (s suf : bytes) : option bytes :=
  let k := length s - length suf in
  if bool_decide (length suf ≤ length s ∧ drop k s = suf) then Some (take k s) else None.

(** name.go:39-44 [ReplaceSuffix]. *)
Definition replace_suffix (s suf rep : bytes) : bytes :=
  match cut_suffix s suf with
  | Some before => before ++ rep
  | None => s ++ ["."%char] ++ rep
  end.

(** name.go:11-14 [Capitalize], for strings whose first rune is ASCII; [None] = the Go code panics
    on the empty string (index out of range). *)
Definition capitalize (s : bytes) : option bytes :=
  match s with [] => None | c :: r => Some (to_upper_c c :: r) end.

Definition newline : ascii := ascii_of_N 10.
Definition tab : ascii := ascii_of_N 9.
Definition space : ascii := ascii_of_N 32.

(** strings.Split(s, "\n"). *)
Fixpoint split_lines (s : bytes) : list bytes :=
  match s with
  | [] => [[]]
  | c :: r => if bool_decide (c = newline) then [] :: split_lines r
              else match split_lines r with
                   | l :: ls => (c :: l) :: ls
                   | [] => [[c]]
                   end
  end.
(** strings.Join(ls, "\n"). *)
Fixpoint join_lines (ls : list bytes) : bytes :=
  match ls with
  | [] => []
  | [l] => l
  | l :: rest => l ++ newline :: join_lines rest
  end.

(** indent.go:12-18 [Indent] for a non-negative amount ([strings.Repeat] panics otherwise). *)
Definition indent (s : bytes) (amount : nat) : bytes :=
  join_lines ((λ l, replicate amount space ++ l) <$> split_lines s).

(** strings.TrimSpace(l) == "" on ASCII white space ('\t','\n','\v','\f','\r',' '). *)
Definition is_white (c : ascii) : bool :=
  ((9 <=? code c)%N && (code c <=? 13)%N) || is_space c.
Definition blank (l : bytes) : bool := forallb is_white l.

(** strings.Replace(l, "\t", "    ", -1). *)
Definition expand_tabs (l : bytes) : bytes :=
  flat_map (λ c, if bool_decide (c = tab) then replicate 4 space else [c]) l.

Fixpoint leading_spaces (l : bytes) : nat :=
  match l with
  | c :: r => if is_space c then S (leading_spaces r) else 0
  | [] => 0
  end.

(** indent.go:24-31. *)
Definition normalize_line (l : bytes) : bytes := if blank l then [] else expand_tabs l.

(** indent.go:33-41: smallest indentation of the non-empty lines, starting from the cap. *)
Definition min_indent (cap : nat) (ls : list bytes) : nat :=
  fold_left (λ m l, match l with [] => m | _ => Nat.min m (leading_spaces l) end) ls cap.

(** indent.go:23-51 [Reindent] with the literal cap 10000 as a parameter. *)
Definition reindent_cap (cap : nat) (s : bytes) (amount : nat) : bytes :=
  let ls := normalize_line <$> split_lines s in
  let cur := min_indent cap ls in
  join_lines ((λ l, match l with [] => [] | _ => replicate amount space ++ drop cur l end) <$> ls).
Definition reindent (s : bytes) (amount : nat) : bytes := reindent_cap (N.to_nat 10000) s amount.
