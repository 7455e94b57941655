(** * Model of run.sh: plugins/linuxcontainer/deploy.go, linuxgen/run.sh.go, linuxgen/runfunc.go and
      linuxgen/template.go, together with the part of bash the generated script uses *)
From Verif Require Export Names_Model Env_Model.
Set Default Proof Using "Type".
Open Scope list_scope.

(** runfunc.go:36-44 [getFuncBody]: the text between the first '{' and the last '}'.
    [strings.Index] and [strings.LastIndex] return -1 when nothing is found. *)
Definition index_of (c : ascii) (s : list ascii) : option nat := fst <$> list_find (c =.) s.
Definition last_index_of (c : ascii) (s : list ascii) : option nat :=
  (λ i, length s - 1 - i) <$> index_of c (reverse s).
Definition get_func_body (s : list ascii) : list ascii :=
  let from := match index_of "{"%char s with Some i => i + 1 | None => 0 end in
  match last_index_of "}"%char s with
  | Some to => if bool_decide (from < to) then take (to - from) (drop from s) else []
  | None => []
  end.

(** A generated run function: runfunc.go:46-78.  The body is kept as text; what it does when run is
    an oracle (below). *)
Record rfunc := Rfunc { rf_deps : list string; rf_body : list ascii }.
(** runfunc.go:22-34 [GenerateRunFunc].  Indentation is not modelled. *)
Definition generate_run_func (cmd : list ascii) (deps : list string) : option rfunc :=
  match get_func_body cmd with
  | [] => None
  | body => Some (Rfunc deps body)
  end.

(** run.sh.go:17-25 [RunScript]: run functions by process name ([None]: the empty text), and the
    names of all nodes seen. *)
Record rscript := Rscript { rs_funcs : gmap string (option rfunc); rs_nodes : gset string }.
Definition new_run_script : rscript := Rscript ∅ ∅.
(** run.sh.go:54-62 [Add]. *)
Definition rs_add (name : string) (f : option rfunc) (deps : list string) (r : rscript) : rscript :=
  Rscript (<[name := f]> (rs_funcs r)) (list_to_set deps ∪ rs_nodes r).
(** deploy.go:144-151 [DeclareRunCommand]: adds to the run script even if there was an error.  The
    boolean is [err == nil]. *)
Record rcmd := Rcmd { rc_name : string; rc_cmd : list ascii; rc_deps : list string }.
Definition declare_run_command (c : rcmd) (r : rscript) : rscript * bool :=
  let f := generate_run_func (rc_cmd c) (rc_deps c) in
  (rs_add (rc_name c) f (rc_deps c) r, bool_decide (is_Some f)).
(** linuxcontainer/deploy.go:78-101: process nodes declare one after the other and the first error
    ends generation. *)
Fixpoint declare_all (cs : list rcmd) (r : rscript) : option rscript :=
  match cs with
  | [] => Some r
  | c :: rest => match declare_run_command c r with
                 | (r', true) => declare_all rest r'
                 | (_, false) => None
                 end
  end.
(** run.sh.go:64-75: nodes without a run function are arguments. *)
Definition rs_args (r : rscript) : gset string := rs_nodes r ∖ dom (rs_funcs r).

(** The generated file: text/template ranges over maps in the order of their keys. *)
Record script := Script { sc_args : list string; sc_funcs : list string }.
Definition generate_run_script (r : rscript) : script :=
  Script (sort_strings (elements (rs_args r))) (sort_strings (elements (dom (rs_funcs r)))).

(** ** The shell.  The state: which variables are set, and the process bodies executed so far, each
    with the variables set when it began.  Values of variables, the working directory, output and
    process exit are not modelled. *)
Record shell := Shell { sh_env : gset string; sh_log : list (string * gset string) }.

(** Function definitions, run.sh.go:106-108: a later definition replaces an earlier one with the same
    function name; an empty text defines nothing.  Function names that are shell builtins or clash
    with [run_all], [usage] or [run_...] are not modelled. *)
Definition functions (r : rscript) : gmap string (string * rfunc) :=
  fold_left (λ t n, match rs_funcs r !! n with
                    | Some (Some f) => <[FuncName n := (n, f)]> t
                    | _ => t
                    end) (sc_funcs (generate_run_script r)) ∅.

(** What running the body of a process does: the variables set afterwards and whether the status
    is 0. *)
Notation bodies := (string → gset string → gset string * bool).

(** template.go:63-70: [if [ -z "${X+x}" ]; then if ! x; then return $?; fi; fi] for one dependency
    after the other.  The result is false if the function returned early. *)
Fixpoint get_deps (call : string → shell → option (shell * bool)) (deps : list string) (s : shell)
    : option (shell * bool) :=
  match deps with
  | [] => Some (s, true)
  | d :: rest =>
      if bool_decide (EnvVar d ∈ sh_env s) then get_deps call rest s
      else match call (FuncName d) s with
           | None => None
           | Some (s', true) => get_deps call rest s'
           | Some (s', false) => Some (s', false)
           end
  end.
(** runfunc.go:52-78: calling a run function; [None]: out of fuel, i.e. recursion too deep.  A
    function that is not defined has status 127.  [$?] after [if ! x; then] is the status of [! x],
    which is 0. *)
Fixpoint call (fuel : nat) (t : gmap string (string * rfunc)) (body : bodies) (fn : string) (s : shell)
    : option (shell * bool) :=
  match fuel with
  | O => None
  | S fuel' =>
      match t !! fn with
      | None => Some (s, false)
      | Some (name, f) =>
          match get_deps (call fuel' t body) (rf_deps f) s with
          | None => None
          | Some (s', false) => Some (s', true)
          | Some (s', true) =>
              let '(env', ok) := body name (sh_env s') in
              let s'' := Shell env' (sh_log s' ++ [(name, sh_env s')]) in
              if ok then Some (s'', bool_decide (EnvVar name ∈ env')) else Some (s'', false)
          end
      end
  end.
(** run.sh.go:110-137 [run_all], whose status is that of the script. *)
Fixpoint call_all (fuel : nat) (t : gmap string (string * rfunc)) (body : bodies) (names : list string) (s : shell)
    : option shell :=
  match names with
  | [] => Some s
  | n :: rest => match call fuel t body (FuncName n) s with
                 | None => None
                 | Some (s', _) => call_all fuel t body rest s'
                 end
  end.
Definition run_sh (fuel : nat) (r : rscript) (body : bodies) (env : gset string) : option (shell * bool) :=
  let sc := generate_run_script r in
  let s := Shell env [] in
  if forallb (λ a, bool_decide (EnvVar a ∈ env)) (sc_args sc) then
    match call_all fuel (functions r) body (sc_funcs sc) s with
    | None => None
    | Some s' => Some (s', true)
    end
  else Some (s, false).
