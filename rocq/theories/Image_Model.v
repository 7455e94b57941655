(** * Model of container images: plugins/linuxcontainer/{deploy,deploy_docker,ir}.go, dockergen/dockerfile_.go,
      plugins/goproc/{deploy_linux_,ir_goproc}.go, plugins/goproc/linuxgen, the part of plugins/dockercompose/deploy.go
      that collects images, and the part of Docker that the generated Dockerfiles use

    Simplifications: a directory on the host is known by the processes whose artifacts were generated into it, in
    order; a program by the process it was compiled from.  Docker: images have root directories only; what
    a directory that is copied into had before is forgotten; the commands "go mod download" and the copies of
    busybox's shell, build.sh and run.sh succeed; build.sh is empty, as no process in the repository adds a build
    script; compiling what one process generated succeeds (the subject of C40, C51 and others). *)
From Verif Require Export RunSh_Model.
From stdpp Require Export gmap list.
Set Default Proof Using "Type".
Open Scope string_scope.
Open Scope list_scope.

(** ** The processes *)
(** goproc/ir_goproc.go:10-35.  [pr_go]: a golang process; others generate into their directory, add no Dockerfile
    commands, and bring their own run command. *)
Record process := Process { pr_name : string; pr_edges : list string; pr_go : bool; pr_cmd : list ascii }.

(** goproc/linuxgen/goproc_runfunc.go:37-45 *)
Definition binary_run_func (name : string) (args : list string) : string :=
  "run_" +:+ FuncName name +:+ " {
	cd " +:+ name +:+ "
    ./" +:+ name +:+ String.concat "" ((λ a, " --" +:+ a +:+ "=$" +:+ EnvVar a) <$> args) +:+ " &
	" +:+ EnvVar name +:+ "=$!
	return $?
}".

(** ** The Dockerfile *)
Inductive instr :=
| From (image : string) (stage : option string)   (* FROM image [AS stage] *)
| CopyDir (src dst : string)                      (* COPY ./src /dst *)
| CopyFrom (stage src dst : string)               (* COPY --from=stage /src /dst *)
| Mkdir (d : string)                              (* RUN mkdir /d *)
| GoBuild (out pkg : string).                     (* RUN go build -o /out ./pkg, in /src *)

(** goproc/linuxgen/dockerfile_buildcommands.go:20-37 *)
Definition build_commands (c : string) : list instr :=
  [From "golang:1.25-bookworm" (Some c); CopyDir c "src"; Mkdir c; GoBuild c c].
(** dockergen/dockerfile_.go:38-82, without the steps that concern build.sh and run.sh.  text/template ranges over
    maps in the order of their keys. *)
Definition keys {A} (m : gmap string A) : list string := sort_strings (elements (dom m)).
Definition dockerfile (custom : gmap string (list instr)) (plain : gmap string (list string)) : list instr :=
  concat ((λ c, default [] (custom !! c)) <$> keys custom) ++
  [From "gcr.io/distroless/base-debian12" None] ++
  ((λ c, CopyDir c c) <$> keys plain) ++
  ((λ c, CopyFrom c c c) <$> keys custom).

(** ** Generating the image directory of a container *)
Record workspace := Workspace {
  ws_visited : gset string;
  ws_dirs : gmap string (list string);    (* ProcDirs: subdirectory -> processes generated there *)
  ws_custom : gmap string (list instr);   (* CustomProcs *)
  ws_run : rscript }.
(** linuxcontainer/deploy.go:105-116, deploy_docker.go:95-101 *)
Definition new_workspace : workspace := Workspace ∅ ∅ ∅ new_run_script.
(** goproc/deploy_linux_.go:28-53; linuxcontainer/deploy.go:130-135 *)
Definition add_artifacts (p : process) (w : workspace) : workspace :=
  let key := pr_name p +:+ ".artifacts" in
  if decide (key ∈ ws_visited w) then w
  else
    let c := CleanName (pr_name p) in
    Workspace ({[key]} ∪ ws_visited w) (<[c := default [] (ws_dirs w !! c) ++ [pr_name p]]> (ws_dirs w))
      (if pr_go p then <[c := build_commands c]> (ws_custom w) else ws_custom w) (ws_run w).
(** goproc/deploy_linux_.go:56-78; linuxcontainer/deploy.go:147-152 *)
Definition run_cmd (p : process) : rcmd :=
  Rcmd (pr_name p)
    (if pr_go p then list_ascii_of_string (binary_run_func (CleanName (pr_name p)) (pr_edges p)) else pr_cmd p)
    (pr_edges p).
Definition add_instance (p : process) (w : workspace) : option workspace :=
  let key := pr_name p +:+ ".instance" in
  if decide (key ∈ ws_visited w) then Some w
  else match declare_run_command (run_cmd p) (ws_run w) with
       | (r, true) => Some (Workspace ({[key]} ∪ ws_visited w) (ws_dirs w) (ws_custom w) r)
       | (_, false) => None end.
Fixpoint add_instances (ps : list process) (w : workspace) : option workspace :=
  match ps with
  | [] => Some w
  | p :: r => match add_instance p w with Some w' => add_instances r w' | None => None end end.
(** What is in the directory of an image. *)
Record image_dir := ImageDir { im_dockerfile : list instr; im_dirs : gmap string (list string); im_run : rscript }.
(** linuxcontainer/deploy.go:80-103, deploy_docker.go:110-120, dockerfile_.go:32-38 *)
Definition image_of (ps : list process) : option image_dir :=
  match add_instances ps (foldl (λ w p, add_artifacts p w) new_workspace ps) with
  | None => None
  | Some w =>
      let plain := filter (λ x, ws_custom w !! x.1 = None) (ws_dirs w) in
      Some (ImageDir (dockerfile (ws_custom w) plain) (ws_dirs w) (ws_run w)) end.

(** ** Docker *)
(** A root directory of an image: one the base image has, sources, or one with a program [file] compiled from
    what process [p] generated. *)
Inductive content := Existing | Sources (ps : list string) | Program (file p : string).
Notation root := (gmap string content).
Record env := Env {
  e_golang : gset string;                     (* the root directories of the image golang:1.25-bookworm *)
  e_base : gset string;                       (* those of the final base image *)
  e_mixed : list string → option string }.    (* what compiling a directory gives that several processes wrote to *)

Section docker.
Context (E : env).
Definition base_root (image : string) : root :=
  set_to_map (λ d, (d, Existing)) (if decide (image = "golang:1.25-bookworm") then e_golang E else e_base E).
(** Stage names are lower-cased, start with a letter and contain no spaces; the other characters CleanName leaves
    are allowed. *)
Definition lower (s : string) : string := string_of_list_ascii (to_lower_c <$> list_ascii_of_string s).
Definition no_space (s : string) : bool := forallb (λ c, negb (is_space c)) (list_ascii_of_string s).
Definition valid_stage (s : string) : bool :=
  match list_ascii_of_string (lower s) with
  | [] => false
  | c :: _ => is_lower c && no_space s end.
(** What compiling ./pkg gives: the module of a golang process is in the subdirectory with its clean name. *)
Definition compiled (ps : list string) (pkg : string) : option string :=
  match ps with
  | [] => None
  | [p] => if decide (CleanName p = pkg) then Some p else None
  | _ => e_mixed E ps end.

(** The state is the list of stages finished or begun, the last first. *)
Definition exec (ctx : gmap string (list string)) (i : instr) (b : list (option string * root))
    : option (list (option string * root)) :=
  match i with
  | From image s =>
      match s with
      | None => Some ((None, base_root image) :: b)
      | Some s => if valid_stage s then Some ((Some (lower s), base_root image) :: b) else None end
  | CopyDir src dst =>
      match b with
      | [] => None
      | (s, r) :: b' =>
          if no_space src then
            if decide (src = "") then Some ((s, (Sources <$> ctx) ∪ r) :: b')
            else match ctx !! src with
                 | Some ps => Some ((s, <[dst := Sources ps]> r) :: b')
                 | None => None end
          else None end
  | CopyFrom st src dst =>
      match b with
      | [] => None
      | (s, r) :: b' =>
          match list_find (λ x, x.1 = Some (lower st)) b' with
          | Some (_, (_, r')) => match r' !! src with
                                 | Some c => Some ((s, <[dst := c]> r) :: b')
                                 | None => None end
          | None => None end end
  | Mkdir d =>
      match b with
      | [] => None
      | (s, r) :: b' => match r !! d with
                        | Some _ => None
                        | None => Some ((s, <[d := Existing]> r) :: b') end end
  | GoBuild out pkg =>
      match b with
      | [] => None
      | (s, r) :: b' => match r !! "src" with
                        | Some (Sources ps) => match compiled ps pkg with
                                               | Some p => Some ((s, <[out := Program pkg p]> r) :: b')
                                               | None => None end
                        | _ => None end end end.
Fixpoint exec_all (ctx : gmap string (list string)) (is : list instr) (b : list (option string * root))
    : option (list (option string * root)) :=
  match is with
  | [] => Some b
  | i :: r => match exec ctx i b with Some b' => exec_all ctx r b' | None => None end end.
(** The root of the image: the last stage. *)
Definition docker_build (d : image_dir) : option root :=
  match exec_all (im_dirs d) (im_dockerfile d) [] with
  | Some ((_, r) :: _) => Some r
  | _ => None end.

(** What the run function of a golang process starts: "cd c; ./c" from the root directory. *)
Definition started (r : root) (name : string) : option string :=
  match r !! CleanName name with
  | Some (Program f p) => if decide (f = CleanName name) then Some p else None
  | _ => None end.
End docker.

(** ** The deployment *)
(** linuxcontainer/ir.go:15-34 *)
Record container := Container { ct_name : string; ct_procs : list process }.
Record deployment := Deployment {
  dp_visited : gset string;
  dp_images : gmap string image_dir;      (* image name -> directory *)
  dp_instances : gmap string string }.    (* service in docker-compose.yml -> image name *)
Definition new_deployment : deployment := Deployment ∅ ∅ ∅.
(** deploy_docker.go:50-75, dockercompose/deploy.go:103-109; [None]: an error *)
Definition add_image (c : container) (d : deployment) : option deployment :=
  let im := CleanName (ct_name c) in
  let key := im +:+ ".artifacts" in
  if decide (key ∈ dp_visited d) then Some d
  else match image_of (ct_procs c) with
       | None => None
       | Some i => Some (Deployment ({[key]} ∪ dp_visited d) (<[CleanName im := i]> (dp_images d)) (dp_instances d)) end.
(** deploy_docker.go:78-87, dockercompose/deploy.go:118-121, dockergen/dockercompose.go:164-183 *)
Definition add_container (c : container) (d : deployment) : option deployment :=
  let key := ct_name c +:+ ".instance" in
  if decide (key ∈ dp_visited d) then Some d
  else match dp_instances d !! CleanName (ct_name c) with
       | Some _ => None
       | None => Some (Deployment ({[key]} ∪ dp_visited d) (dp_images d)
                         (<[CleanName (ct_name c) := CleanName (ct_name c)]> (dp_instances d))) end.
(** dockercompose/deploy.go:62-85 *)
Definition all_of (f : container → deployment → option deployment) : list container → deployment → option deployment :=
  fix go cs d := match cs with
                 | [] => Some d
                 | c :: r => match f c d with Some d' => go r d' | None => None end end.
Definition deploy (cs : list container) : option deployment :=
  match all_of add_image cs new_deployment with
  | Some d => all_of add_container cs d
  | None => None end.
