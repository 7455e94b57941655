(** * Model of the docker-compose deployment: plugins/dockercompose/deploy.go and
      plugins/dockercompose/dockergen/dockercompose.go *)
From Verif Require Export Ports_Model Env_Model.
From stdpp Require Export pretty.
Set Default Proof Using "Type".
Open Scope list_scope.

(** Arguments of a container instance.  A [BindConfig] is a pointer into the heap of [Ports_Model]
    (its ports get assigned and cleared); of a [DialConfig] only the name and the address name are
    read; of another [ir.IRConfig] node its name, HasValue and Optional. *)
Inductive carg :=
| ABind (p : nat)
| ADial (key addr : string)
| AConf (name : string) (has_value optional : bool)
| ABad.                                       (* a node that is not an IRConfig *)

(** dockercompose.go:28-39 [instance].  Not modelled: volumes, custom command, custom
    configuration and the unused Passthrough map. *)
Record inst := Inst {
  i_image : string;
  i_build : string;
  i_ports : gmap string N;        (* external address -> internal port *)
  i_expose : gset N;
  i_config : gmap string string   (* environment *)
}.
(** dockercompose.go:164-183: a fresh instance. *)
Definition new_inst (image build : string) : inst := Inst image build ∅ ∅ ∅.

(** deploy.go:41-46: InstanceArgs is keyed by the name as given, Instances by its clean name. *)
Record dws := Dws { w_args : gmap string (list carg); w_insts : gmap string inst }.
Definition dws0 : dws := Dws ∅ ∅.

(** dockercompose.go:75-81 [getInstance] followed by an update of the instance: nothing happens if
    it does not exist. *)
Definition upd_inst (f : inst → inst) (name : string) (m : gmap string inst) : gmap string inst :=
  alter f (CleanName name) m.

(** dockercompose.go:84-92 [AddEnvVar], 125-133 [PassthroughEnvVar], 136-143 [ExposePort],
    148-155 [MapPort], 159-162 [MapPortToEnvVar], as updates of one instance. *)
Definition add_env (key val : string) (i : inst) : inst :=
  Inst (i_image i) (i_build i) (i_ports i) (i_expose i) (<[EnvVar key := val]> (i_config i)).
Definition must_be_set (key : string) : string :=
  ("${" +:+ EnvVar key +:+ "?" +:+ key +:+ " must be set by the calling environment}")%string.
Definition or_empty (key : string) : string := ("${" +:+ EnvVar key +:+ ":-}")%string.
Definition passthrough (key : string) (optional : bool) (i : inst) : inst :=
  add_env key (if optional then or_empty key else must_be_set key) i.
Definition expose (p : N) (i : inst) : inst :=
  Inst (i_image i) (i_build i) (i_ports i) ({[p]} ∪ i_expose i) (i_config i).
Definition map_port (p : N) (ext : string) (i : inst) : inst :=
  Inst (i_image i) (i_build i) (<[ext := p]> (i_ports i)) (i_expose i) (i_config i).
Definition map_port_env (p : N) (key : string) (i : inst) : inst := map_port p (must_be_set key) i.

(** The calls container nodes make on the workspace (deploy.go:103-143).  [DMisc]: SetCustomCommand,
    AddVolume or AddCustomConf, which touch nothing modelled here. *)
Inductive dop :=
| DPrebuilt (name image : string) (args : list carg)
| DLocal (name dir : string) (args : list carg)
| DSetEnv (name key val : string)
| DMisc (name : string).

(** One call; [None]: it returned an error.  Note InstanceArgs is written before the check for
    re-declaration (deploy.go:113, 119). *)
Definition declare (w : dws) (name image build : string) (args : list carg) : option dws :=
  match w_insts w !! CleanName name with
  | Some _ => None
  | None => Some (Dws (<[name := args]> (w_args w)) (<[CleanName name := new_inst image build]> (w_insts w)))
  end.
Definition do_op (w : dws) (o : dop) : option dws :=
  match o with
  | DPrebuilt n im args => declare w n im "" args
  | DLocal n d args => declare w n "" d args
  | DSetEnv n k v => if bool_decide (is_Some (w_insts w !! CleanName n))
                     then Some (Dws (w_args w) (upd_inst (add_env k v) n (w_insts w))) else None
  | DMisc n => if bool_decide (is_Some (w_insts w !! CleanName n)) then Some w else None
  end.
(** deploy.go:62-79: the calls are made in order, stopping at the first error. *)
Fixpoint do_ops (w : dws) (os : list dop) : option dws :=
  match os with
  | [] => Some w
  | o :: rest => match do_op w o with Some w' => do_ops w' rest | None => None end
  end.

(** address.Split, portassignment.go:10-22. *)
Definition binds_of (args : list carg) : list nat :=
  omap (λ a, match a with ABind p => Some p | _ => None end) args.
Definition dials_of (args : list carg) : list (string * string) :=
  omap (λ a, match a with ADial k ad => Some (k, ad) | _ => None end) args.
Definition rest_of (args : list carg) : list carg :=
  omap (λ a, match a with AConf _ _ _ | ABad => Some a | _ => None end) args.

(** "%v:%v". *)
Definition host_port (h : string) (p : N) : string := (h +:+ ":" +:+ pretty p)%string.

(** deploy.go:165-180: the arguments that are not addresses; [None]: not a config node. *)
Fixpoint do_rest (name : string) (rest : list carg) (m : gmap string inst) : option (gmap string inst) :=
  match rest with
  | [] => Some m
  | AConf k hv opt :: r => do_rest name r (if hv then m else upd_inst (passthrough k opt) name m)
  | _ :: _ => None
  end.

Inductive dresult (A : Type) := DOk (a : A) | DErr | DHang.
Arguments DOk {A} _. Arguments DErr {A}. Arguments DHang {A}.

Record dstate := Dstate { s_heap : heap; s_addrs : gmap string string; s_insts : gmap string inst }.

(** deploy.go:182-209: assign, tell, expose and map ports of one instance. *)
Definition tell_binds (h : heap) (name : string) (asg : list nat) (m : gmap string inst) : gmap string inst :=
  fold_left (λ m b, upd_inst (add_env (b_key (deref h b)) (host_port "0.0.0.0" (port_of h b))) name m) asg m.
Definition expose_binds (h : heap) (name : string) (binds : list nat) (m : gmap string inst) : gmap string inst :=
  fold_left (λ m b, upd_inst (expose (port_of h b)) name m) binds m.
Definition save_addrs (h : heap) (name : string) (binds : list nat) (a : gmap string string) : gmap string string :=
  fold_left (λ a b, <[b_addr (deref h b) := host_port (CleanName name) (port_of h b)]> a) binds a.
Definition map_binds (h : heap) (name : string) (binds : list nat) (m : gmap string inst) : gmap string inst :=
  fold_left (λ m b, upd_inst (map_port_env (port_of h b) (b_key (deref h b))) name m) binds m.

Definition phase1_one (fuel : nat) (s : dstate) (name : string) (args : list carg) : dresult dstate :=
  match do_rest name (rest_of args) (s_insts s) with
  | None => DErr
  | Some m =>
      match assign_ports fuel (s_heap s) (binds_of args) with
      | AConflict _ _ => DErr
      | ADiverge => DHang
      | APorts h _ asg =>
          DOk (Dstate (clear h (binds_of args))
                      (save_addrs h name (binds_of args) (s_addrs s))
                      (map_binds h name (binds_of args)
                        (expose_binds h name (binds_of args) (tell_binds h name asg m))))
      end
  end.
(** deploy.go:161-211: [order] is the order in which Go ranges over InstanceArgs. *)
Fixpoint phase1 (fuel : nat) (args : gmap string (list carg)) (order : list string) (s : dstate) : dresult dstate :=
  match order with
  | [] => DOk s
  | n :: rest => match phase1_one fuel s n (default [] (args !! n)) with
                 | DOk s' => phase1 fuel args rest s'
                 | r => r
                 end
  end.

(** deploy.go:216-225: second loop, with its own iteration order. *)
Definition set_dials (addrs : gmap string string) (name : string) (dials : list (string * string)) (m : gmap string inst) : gmap string inst :=
  fold_left (λ m d, match addrs !! d.2 with
                    | Some a => upd_inst (add_env d.1 a) name m
                    | None => upd_inst (passthrough d.1 false) name m
                    end) dials m.
Definition phase2 (args : gmap string (list carg)) (order : list string) (addrs : gmap string string) (m : gmap string inst) : gmap string inst :=
  fold_left (λ m n, set_dials addrs n (dials_of (default [] (args !! n))) m) order m.

(** deploy.go:146-226 [Finish], [processArgNodes]: the instances handed to the template. *)
Definition finish (fuel : nat) (h : heap) (w : dws) (order1 order2 : list string) : dresult (gmap string inst) :=
  match phase1 fuel (w_args w) order1 (Dstate h ∅ (w_insts w)) with
  | DOk s => DOk (phase2 (w_args w) order2 (s_addrs s) (s_insts s))
  | DErr => DErr
  | DHang => DHang
  end.

(** dockercompose.go:185-231, the parts of the template that concern networking: hostname, ports and
    environment of one service.  The expose and ports sections are both inside [if .Ports], the
    environment section inside [if .Config]; ranging over an empty map writes nothing anyway. *)
Definition shown_hostname (key : string) : string := key.
Definition shown_expose (i : inst) : gset N := if decide (i_ports i = ∅) then ∅ else i_expose i.
Definition shown_ports (i : inst) : gmap string N := if decide (i_ports i = ∅) then ∅ else i_ports i.
Definition shown_env (i : inst) : gmap string string := if decide (i_config i = ∅) then ∅ else i_config i.
