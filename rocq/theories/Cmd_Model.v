(** * Model of the compiler command line: plugins/cmdbuilder/cmdbuilder.go

    and of the errors that plugins record in a wiring spec (blueprint/pkg/wiring/wiring.go:266-288).
    The wiring spec functions, BuildIR (modelled in NS_Model), the analysis passes and
    GenerateArtifacts (modelled in IRBuild_Model) are arbitrary functions here. *)
From stdpp Require Export strings gmap.
From Coq Require Export NArith.
Set Default Proof Using "Type".

Section cmd.
  (** [SP]: the definitions, aliases and properties of a wiring spec.  [E]: errors.  [IR]: the
      application node, which passes may modify in place. *)
  Context {SP E IR : Type}.

  (** wiring.go:90-96 [wiringSpecImpl]: the definitions and the recorded errors. *)
  Record wspec := WSpec { ws_defs : SP; ws_errs : list E }.

  (** wiring.go:266-268 [AddError]. *)
  Definition add_error (s : wspec) (e : E) : wspec := WSpec (ws_defs s) (ws_errs s ++ [e]).

  (** wiring.go:282-288 [Err]: the recorded errors as one [WiringError], nil when there are none. *)
  Definition err (s : wspec) : option (list E) :=
    match ws_errs s with [] => None | es => Some es end.

  (** cmdbuilder.go:79-83 [SpecOption]; [Build] works on the wiring spec it is given and returns the
      nodes to instantiate or an error. *)
  Record spec_option := SpecOption {
    so_name : string;
    so_desc : string;
    so_build : wspec → wspec * (E + list string)
  }.

  (** analysis.go:10-14 [IRAnalysisPass]: may modify the IR; reports whether it did, or an error. *)
  Record pass := Pass { pa_name : string; pa_analyze : wspec → IR → IR * (E + bool) }.

  (** cmdbuilder.go:88-101 [CmdBuilder], the fields that its functions read later.  [cb_port] is a
      uint16. *)
  Record builder := Builder {
    cb_out : string; cb_spec_name : string; cb_env : bool; cb_port : N;
    cb_spec : option spec_option; cb_passes : list pass; cb_registry : gmap string spec_option
  }.

  (** cmdbuilder.go:138-143 [NewCmdBuilder] (without the application name, used in messages). *)
  Definition new_builder : builder := Builder "" "" false 0%N None [] ∅.

  (** cmdbuilder.go:145-149 [Add]. *)
  Definition add (b : builder) (specs : list spec_option) : builder :=
    Builder (cb_out b) (cb_spec_name b) (cb_env b) (cb_port b) (cb_spec b) (cb_passes b)
      (fold_left (fun r s => <[so_name s := s]> r) specs (cb_registry b)).

  (** cmdbuilder.go:151-153 [RegisterPasses]. *)
  Definition register_passes (b : builder) (ps : list pass) : builder :=
    Builder (cb_out b) (cb_spec_name b) (cb_env b) (cb_port b) (cb_spec b) (cb_passes b ++ ps)
      (cb_registry b).

  (** The values of the command line flags after flag.Parse (cmdbuilder.go:156-162); a flag that was
      not given has its default.  [-quiet] only concerns logging. *)
  Record flags := Flags { fl_o : string; fl_w : string; fl_env : bool; fl_port : N }.

  (** cmdbuilder.go:155-169 [ParseArgs]; [uint16( * port)] keeps the low 16 bits. *)
  Definition parse_args (b : builder) (f : flags) : builder :=
    Builder (fl_o f) (fl_w f) (fl_env f) (fl_port f `mod` 65536)%N (cb_spec b) (cb_passes b)
      (cb_registry b).

  (** cmdbuilder.go:171-192 [ValidateArgs]: [None] = an error was returned. *)
  Definition validate_args (b : builder) : option builder :=
    if bool_decide (cb_out b = "") then None
    else if bool_decide (cb_spec_name b = "") then None
    else match cb_registry b !! cb_spec_name b with
         | Some s => Some (Builder (cb_out b) (cb_spec_name b) (cb_env b) (cb_port b) (Some s)
                             (cb_passes b) (cb_registry b))
         | None => None
         end.

  (** What the compiler did that is visible from outside: GenerateArtifacts was called with this
      output directory on this IR, with ports assigned from this one if at all. *)
  Inductive event :=
  | EvSpec (name : string)
  | EvBuildIR (nodes : list string)
  | EvPass (name : string)
  | EvGenerate (dir : string) (ir : IR) (port : option N).

  (** [BuildIR] (wiring.go:290-292, application.go:18-56): it reads the definitions only.  It
      returns the IR also when it returns an error. *)
  Context (empty : SP) (build_ir : SP → list string → IR * option E)
          (generate : string → IR → option N → option E).

  (** cmdbuilder.go:232-243: the loop over the analysis passes; stops at the first error. *)
  Fixpoint run_passes (w : wspec) (ps : list pass) (ir : IR) : IR * bool * list event :=
    match ps with
    | [] => (ir, true, [])
    | p :: r =>
        match pa_analyze p w ir with
        | (ir', inl _) => (ir', false, [EvPass (pa_name p)])
        | (ir', inr _) => let '(ir2, ok, ev) := run_passes w r ir' in (ir2, ok, EvPass (pa_name p) :: ev)
        end
    end.

  (** cmdbuilder.go:203-254 [Build]: true = nil error.  The default builders (goproc, linux
      container, docker compose) are always registered and belong to [generate]. *)
  Definition build (b : builder) : bool * list event :=
    match cb_spec b with
    | None => (false, []) (* unreachable: ValidateArgs sets it *)
    | Some so =>
        let ev1 := [EvSpec (so_name so)] in
        match so_build so (WSpec empty []) with
        | (w, inl _) => (false, ev1)
        | (w, inr nodes) =>
            let ev2 := ev1 ++ [EvBuildIR nodes] in
            match build_ir (ws_defs w) nodes with
            | (_, Some _) => (false, ev2)
            | (ir, None) =>
                let '(ir', ok, evp) := run_passes w (cb_passes b) ir in
                if ok then
                  let port := if cb_env b then Some (cb_port b) else None in
                  let ev3 := ev2 ++ evp ++ [EvGenerate (cb_out b) ir' port] in
                  match generate (cb_out b) ir' port with
                  | Some _ => (false, ev3)
                  | None => (true, ev3)
                  end
                else (false, ev2 ++ evp)
            end
        end
    end.

  (** cmdbuilder.go:105-136 [MakeAndExecute], [MakeAndExecuteWithPasses]: the exit code of the
      process and what it did. *)
  Definition make_and_execute (ps : list pass) (specs : list spec_option) (f : flags)
      : nat * list event :=
    match validate_args (parse_args (add new_builder specs) f) with
    | None => (1, [])
    | Some b => let '(ok, ev) := build (register_passes b ps) in (if ok then 0 else 2, ev)
    end.
End cmd.
Arguments wspec : clear implicits.
Arguments spec_option : clear implicits.
Arguments pass : clear implicits.
Arguments builder : clear implicits.
Arguments event : clear implicits.
