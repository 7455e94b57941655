(** * Model of the generated .env files: plugins/environment/wiring.go *)
From stdpp Require Export strings gmap sorting pretty.
From Verif Require Export Names_Model.
Set Default Proof Using "Type".
Open Scope list_scope.

(** linux/util.go:17-26 and ir.CleanName on [string]s ([Names_Model] works on lists of bytes). *)
Definition CleanName (s : string) : string := string_of_list_ascii (clean_name (list_ascii_of_string s)).
Definition EnvVar (s : string) : string := string_of_list_ascii (env_var (list_ascii_of_string s)).
Definition FuncName (s : string) : string := string_of_list_ascii (func_name (list_ascii_of_string s)).

(** The IR config nodes handed to the default "environment" namespace (wiring.go:80-84).  Of a
    [BindConfig] or [DialConfig] only Key and AddressName are read. *)
Inductive cnode :=
| CBind (key addr : string)
| CDial (key addr : string)
| COther (key : string).            (* any other IRConfig node *)

(** strings.Split(name, ".")[0]: everything before the first dot. *)
Fixpoint before_dot (s : string) : string :=
  match s with
  | "" => ""
  | String c r => if bool_decide (c = "."%char) then "" else String c (before_dot r)
  end%string.

(** wiring.go:87-96 [addrconfig]; [None] is a nil pointer. *)
Record addrconfig := Addrconfig { ac_service : string; ac_bind : option string; ac_dial : option string }.
Definition new_addr (name : string) (b d : option string) : addrconfig := Addrconfig (before_dot name) b d.

(** wiring.go:98-119 [matchDialsToBinds], loop body. *)
Definition match_node (m : gmap string addrconfig) (n : cnode) : gmap string addrconfig :=
  match n with
  | CBind k a => match m !! a with
                 | Some c => <[a := Addrconfig (ac_service c) (Some k) (ac_dial c)]> m
                 | None => <[a := new_addr a (Some k) None]> m
                 end
  | CDial k a => match m !! a with
                 | Some c => <[a := Addrconfig (ac_service c) (ac_bind c) (Some k)]> m
                 | None => <[a := new_addr a None (Some k)]> m
                 end
  | COther _ => m
  end.
Definition match_nodes (ns : list cnode) : gmap string addrconfig := fold_left match_node ns ∅.

(** sort.Strings: the byte-wise lexicographic order. *)
Definition str_le (a b : string) : Prop := String.leb a b = true.
#[global] Instance str_le_dec a b : Decision (str_le a b).
Proof. unfold str_le. apply _. Defined.
Definition sort_strings (ks : list string) : list string := merge_sort str_le ks.

(** One line of a .env file: "%s=%s:%d\n". *)
Record eline := Eline { el_var : string; el_host : string; el_port : N }.
Definition render_line (l : eline) : string :=
  (el_var l +:+ "=" +:+ el_host l +:+ ":" +:+ pretty (el_port l) +:+ String (ascii_of_N 10) "")%string.

(** wiring.go:141-150: the lines for one address. *)
Definition addr_lines (localhost : bool) (port : N) (c : addrconfig) : list eline :=
  match ac_bind c with Some k => [Eline (EnvVar k) "0.0.0.0" port] | None => [] end ++
  match ac_dial c with
  | Some k => [Eline (EnvVar k) (if localhost then "localhost" else ac_service c)%string port]
  | None => []
  end.

(** wiring.go:139-152: the loop over the sorted keys; [port += 1] on a uint16. *)
Fixpoint gen_lines (localhost : bool) (m : gmap string addrconfig) (ks : list string) (port : N) : list eline :=
  match ks with
  | [] => []
  | k :: rest =>
      match m !! k with
      | Some c => addr_lines localhost port c
      | None => []
      end ++ gen_lines localhost m rest ((port + 1) mod 65536)%N
  end.

(** wiring.go:132-162 [generateEnv]: [order] is the order in which Go ranges over the map when it
    collects the keys.  Writing the file is not modelled: the result is the list of lines and the
    text is their concatenation. *)
Definition generate_env (localhost : bool) (m : gmap string addrconfig) (order : list string) (port : N) : list eline :=
  gen_lines localhost m (sort_strings order) port.
Definition env_text (ls : list eline) : string := foldr (λ l t, render_line l +:+ t)%string ""%string ls.

(** wiring.go:122-130 [generateEnvFiles]: (.local.env, .env). *)
Definition generate_env_files (ns : list cnode) (order1 order2 : list string) (port : N) : list eline * list eline :=
  let m := match_nodes ns in
  (generate_env true m order1 port, generate_env false m order2 port).
