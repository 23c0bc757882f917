(** * Model of help/utils/runtime.go, sys.go, cmd.go and of ImageFileToBase64 (files.go)

    Linux.  Files are those of FsModel.v; a file that exists can be read.  Only what these functions ask of
    the system is modelled: the arguments of the program, the working directory, the processes with their
    parents and groups, kill(1), and a shell that reads its commands line by line from its input. *)
From Verif Require Export GoStr PathModel FsModel.
From Verif Require Import ConvModel Base64Model ZipfsModel.
Local Open Scope Z_scope.

(** ioutil.ReadFile *)
Definition read_res (P : proc) (s : tree) (p : gostr) : res gostr :=
  match stat P s p with
  | Ok (NFile x) => Ok x
  | Ok NDir => Err EISDIR
  | Ok (NLink _) => Err ELOOP
  | Err e => Err e
  end.
(** files.go:214-223 *)
Definition image_file_to_base64 (P : proc) (s : tree) (p : gostr) : gostr :=
  match read_res P s p with
  | Err _ => []
  | Ok f => str "data:image/png;base64," ++ base64_encode f
  end.

(** filepath.Clean as text *)
Definition render (q : path) : gostr :=
  if p_rooted q then path_str (p_comps q) else match p_comps q with [] => dot | c :: r => c ++ (r ≫= λ c, 47 :: c) end.
(** filepath.Dir: everything up to the last slash, cleaned *)
Definition up_to_slash (p : gostr) : gostr := reverse (drop_while (λ c, negb (c =? 47)) (reverse p)).
Definition dir_text (p : gostr) : gostr := render (clean (up_to_slash p)).
(** runtime.go:15-21; [args] is os.Args, [getwd] whether os.Getwd succeeds; None: log.Fatal ends the process *)
Definition get_current_dir (P : proc) (getwd : bool) (args : list gostr) : go (option gostr) :=
  match args with
  | [] => Panic PIndex
  | a :: _ =>
    let d := dir_text a in
    if negb (is_abs d) && negb getwd then Ret None
    else Ret (Some (go_replace (path_str (abs_path P d)) (str "\") (str "/")))
  end.

(** the processes: number, parent and group; getppid(2) gives 0 for a parent outside of the namespace *)
Record process := Process { pr_pid : Z; pr_parent : Z; pr_group : Z }.
Definition getppid (ps : list process) (me : Z) : Z :=
  match find (λ q, pr_pid q =? me) ps with
  | None => 0
  | Some q => if existsb (λ r, pr_pid r =? pr_parent q) ps then pr_parent q else 0
  end.
Definition sighup : Z := 1.
(** kill(1) with a signal number and one operand, called by a process of group [g]: the signals it delivers;
    None: it fails *)
Definition kill (ps : list process) (g : Z) (sig : Z) (operand : Z) : option (list (Z * Z)) :=
  let ts := if 0 <? operand then filter (λ q, pr_pid q = operand) ps
            else if operand =? 0 then filter (λ q, pr_group q = g) ps
            else if operand =? -1 then filter (λ q, pr_pid q ≠ 1) ps
            else filter (λ q, pr_group q = - operand) ps in
  match ts with [] => None | _ => Some ((λ q, (pr_pid q, sig)) <$> ts) end.
(** sys.go:16-25: true for a nil error, and the signals; the arguments of kill are texts *)
Definition reload (windows : bool) (ps : list process) (me g : Z) : bool * list (Z * Z) :=
  if windows then (false, [])
  else
    let operand := string_to_int64 (int_to_string (getppid ps me)) in
    match kill ps g sighup operand with Some l => (true, l) | None => (false, []) end.

(** what a command leaves: its output, its error output, its status, and what it did not read of the input *)
Record did := Did { d_out : gostr; d_err : gostr; d_status : Z; d_rest : gostr }.
(** the first line of a text and what is behind it *)
Fixpoint cut_line (s : gostr) : gostr * gostr :=
  match s with [] => ([], []) | c :: r => if c =? 10 then ([], r) else let '(l, t) := cut_line r in (c :: l, t) end.
Section shell.
  (** a command, given the input behind its line *)
  Context (command : gostr → gostr → did).
  (** sh without arguments: output, error output and status; every line is a command, and exit ends the shell with the
      status of the last one *)
  Fixpoint sh (fuel : nat) (status : Z) (input : gostr) : gostr * gostr * Z :=
    match fuel, input with
    | S f, _ :: _ =>
      let '(line, rest) := cut_line input in
      if bool_decide (line = []) then sh f status rest
      else if bool_decide (line = str "exit") then ([], [], status)
      else let d := command line rest in
        let '(o, e, st) := sh f (d_status d) (d_rest d) in (d_out d ++ o, d_err d ++ e, st)
    | _, _ => ([], [], status)
    end.
  (** cmd.go:13-28; [found]: there is a sh that can be started.  inl: the output, inr: the error's text *)
  Definition shell_exec (found : bool) (cmd : gostr) : gostr + gostr :=
    let input := cmd ++ [10] ++ str "exit" ++ [10] in
    if negb found then inr []
    else let '(o, e, st) := sh (length input) 0 input in
      if st =? 0 then inl o else inr e.
End shell.
