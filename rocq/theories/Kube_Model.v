(** * Model of the Kubernetes deployment: plugins/kubernetes/ir.go,
      plugins/kubernetes/kubepod/deploy.go, kubepod/deploygen/deployfile.go and
      plugins/kubernetes/kubeconfig/codegen.go *)
From Verif Require Export Ports_Model Env_Model Compose_Model.
Set Default Proof Using "Type".
Open Scope list_scope.

(** deployfile.go:24-33 [instance].  Not modelled: custom command, volumes and custom
    configuration, which the template never writes. *)
Record kinst := Kinst {
  k_image : string;
  k_ports : gmap string N;         (* address name -> port *)
  k_config : gmap string string;   (* environment set directly *)
  k_cm : gset string               (* variables read from the config map *)
}.
(** deploy.go:31-34, deployfile.go:22. *)
Record kws := Kws { kw_args : gmap string (list carg); kw_insts : gmap string kinst }.
Definition kws0 : kws := Kws ∅ ∅.

(** deployfile.go:64-71 [getInstance] and an update. *)
Definition k_upd (f : kinst → kinst) (name : string) (m : gmap string kinst) : gmap string kinst :=
  alter f (CleanName name) m.
(** deployfile.go:73-82 [AddEnvVar], 84-91 [AddConfigMapVar], 93-101 [ExposePort]. *)
Definition k_add_env (key val : string) (i : kinst) : kinst :=
  Kinst (k_image i) (k_ports i) (<[EnvVar key := val]> (k_config i)) (k_cm i).
Definition k_add_cm (var : string) (i : kinst) : kinst :=
  Kinst (k_image i) (k_ports i) (k_config i) ({[var]} ∪ k_cm i).
Definition k_expose (name : string) (p : N) (i : kinst) : kinst :=
  Kinst (k_image i) (<[name := p]> (k_ports i)) (k_config i) (k_cm i).

(** deploy.go:113-134, 229-242: the calls container nodes make.  [KDeclare] stands for both
    DeclarePrebuiltInstance and DeclareLocalImage, which differ in the image name only. *)
Inductive kop :=
| KDeclare (name image : string) (args : list carg)
| KSetEnv (name key val : string)
| KMisc (name : string).
(** deployfile.go:130-147 [addInstance]. *)
Definition do_kop (w : kws) (o : kop) : option kws :=
  match o with
  | KDeclare n im args =>
      match kw_insts w !! CleanName n with
      | Some _ => None
      | None => Some (Kws (<[n := args]> (kw_args w)) (<[CleanName n := Kinst im ∅ ∅ ∅]> (kw_insts w)))
      end
  | KSetEnv n k v => if bool_decide (is_Some (kw_insts w !! CleanName n))
                     then Some (Kws (kw_args w) (k_upd (k_add_env k v) n (kw_insts w))) else None
  | KMisc n => if bool_decide (is_Some (kw_insts w !! CleanName n)) then Some w else None
  end.
Fixpoint do_kops (w : kws) (os : list kop) : option kws :=
  match os with
  | [] => Some w
  | o :: rest => match do_kop w o with Some w' => do_kops w' rest | None => None end
  end.

(** deploy.go:170-172: all binds of the pod, in the order Go ranges over InstanceArgs. *)
Definition all_binds (args : gmap string (list carg)) (order : list string) : list nat :=
  order ≫= (λ n, binds_of (default [] (args !! n))).
Definition all_dials (args : gmap string (list carg)) (order : list string) : list (string * string) :=
  order ≫= (λ n, dials_of (default [] (args !! n))).
(** deploy.go:180-183. *)
Definition local_addrs (h : heap) (bs : list nat) : gmap string string :=
  fold_left (λ a b, <[b_addr (deref h b) := host_port "localhost" (port_of h b)]> a) bs ∅.

(** deploy.go:194-209: other arguments must be config nodes with a value. *)
Definition k_rest_ok (rest : list carg) : bool :=
  forallb (λ a, match a with AConf _ true _ => true | _ => false end) rest.
(** deploy.go:211-234: one instance. *)
Definition k_tell (h : heap) (asg : list nat) (name : string) (bs : list nat) (m : gmap string kinst) : gmap string kinst :=
  fold_left (λ m b, if bool_decide (b ∈ asg)
                    then k_upd (k_add_env (b_key (deref h b)) (host_port "0.0.0.0" (port_of h b))) name m else m) bs m.
Definition k_expose_all (h : heap) (name : string) (bs : list nat) (m : gmap string kinst) : gmap string kinst :=
  fold_left (λ m b, k_upd (k_expose (b_addr (deref h b)) (port_of h b)) name m) bs m.
Definition k_dial_all (local : gmap string string) (name : string) (ds : list (string * string)) (m : gmap string kinst) : gmap string kinst :=
  fold_left (λ m d, match local !! d.2 with
                    | Some a => k_upd (k_add_env d.1 a) name m
                    | None => k_upd (k_add_cm (EnvVar d.1)) name m
                    end) ds m.
Fixpoint k_loop (h : heap) (asg : list nat) (local : gmap string string) (args : gmap string (list carg))
    (order : list string) (m : gmap string kinst) : option (gmap string kinst) :=
  match order with
  | [] => Some m
  | n :: rest =>
      let a := default [] (args !! n) in
      if k_rest_ok (rest_of a) then
        k_loop h asg local args rest
          (k_dial_all local n (dials_of a) (k_expose_all h n (binds_of a) (k_tell h asg n (binds_of a) m)))
      else None
  end.

Record kresult := Kresult { r_heap : heap; r_insts : gmap string kinst; r_binds : list nat; r_dials : list (string * string) }.
(** deploy.go:161-240 [processArgNodes] and the copies made by generateArtifacts (deploy.go:78-79). *)
Definition k_process (fuel : nat) (h : heap) (w : kws) (o1 o2 : list string) : dresult kresult :=
  let bs := all_binds (kw_args w) o1 in
  match assign_ports fuel h bs with
  | AConflict _ _ => DErr
  | ADiverge => DHang
  | APorts h' _ asg =>
      match k_loop h' asg (local_addrs h' bs) (kw_args w) o2 (kw_insts w) with
      | None => DErr
      | Some m => DOk (Kresult h' m bs (all_dials (kw_args w) o2))
      end
  end.

(** deploy.go:48-50 [KubernetesName]. *)
Fixpoint kube_name (s : string) : string :=
  match s with
  | "" => ""
  | String c r => String (if bool_decide (c = "_"%char) then "-"%char else c) (kube_name r)
  end%string.

(** The manifests.  deployfile.go:166-183: the whole env section, including the variables read from
    the config map, is inside [if .Config]; of two entries for one variable Kubernetes takes the
    last. *)
Inductive kval := Direct (s : string) | FromConfigMap (key : string).
Definition k_shown_env (i : kinst) (v : string) : option kval :=
  if decide (k_config i = ∅) then None
  else if decide (v ∈ k_cm i) then Some (FromConfigMap v)
  else Direct <$> k_config i !! v.
(** deployfile.go:197-214: the service of a pod lists the ports of all its instances. *)
Definition service_ports (m : gmap string kinst) (p : N) : Prop :=
  ∃ c i a, m !! c = Some i ∧ k_ports i !! a = Some p.

(** ir.go:41-69 [Application.GenerateArtifacts]. *)
Record pod := Pod { p_name : string; p_ws : kws; p_o1 : list string; p_o2 : list string }.
Record podout := Podout { po_pod : string; po_insts : gmap string kinst }.  (* service name, containers *)
Fixpoint gen_pods (fuel : nat) (h : heap) (pods : list pod) (addrs : gmap string (string * nat)) (dials : list (string * string))
    : dresult (heap * gmap string (string * nat) * list (string * string) * list podout) :=
  match pods with
  | [] => DOk (h, addrs, dials, [])
  | p :: rest =>
      match k_process fuel h (p_ws p) (p_o1 p) (p_o2 p) with
      | DOk r =>
          let addrs' := fold_left (λ a b, <[b_addr (deref (r_heap r) b) := (kube_name (p_name p), b)]> a) (r_binds r) addrs in
          match gen_pods fuel (r_heap r) rest addrs' (dials ++ r_dials r) with
          | DOk (h', a', d', outs) => DOk (h', a', d', Podout (kube_name (p_name p)) (r_insts r) :: outs)
          | DErr => DErr
          | DHang => DHang
          end
      | DErr => DErr
      | DHang => DHang
      end
  end.
(** ir.go:60-66; [None]: no bind information for an address. *)
Fixpoint config_data (h : heap) (addrs : gmap string (string * nat)) (dials : list (string * string)) (data : gmap string string)
    : option (gmap string string) :=
  match dials with
  | [] => Some data
  | d :: rest => match addrs !! d.2 with
                 | Some (pn, b) => config_data h addrs rest (<[EnvVar d.1 := host_port pn (port_of h b)]> data)
                 | None => None
                 end
  end.
Definition gen_app (fuel : nat) (h : heap) (pods : list pod) : dresult (gmap string string * list podout) :=
  match gen_pods fuel h pods ∅ [] with
  | DOk (h', addrs, dials, outs) =>
      match config_data h' addrs dials ∅ with
      | Some data => DOk (data, outs)
      | None => DErr
      end
  | DErr => DErr
  | DHang => DHang
  end.
