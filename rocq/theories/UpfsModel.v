(** * Model of help/utils/breakpoint_continue.go on the file tree

    FilesModel.v has the contents of an upload with one map per FileMd5 and no paths.  Here the same
    functions run on the tree of FsModel.v, with the path strings the code builds: "..", slashes and
    symbolic links in the file name, in FileMd5 and in the tree have their effect.  Beyond what FsModel.v
    leaves out: NUL bytes in names, reading errors other than a path that cannot be opened, and files
    that are neither regular, directories nor links.  File modes are not modelled. *)
From Verif Require Export FsModel ConvModel.
Local Open Scope Z_scope.

(** breakpoint_continue.go:11-14 *)
Definition bp_dir : gostr := str "./breakpointDir/".
Definition done_dir : gostr := str "./fileDir/".
(** open(2) for writing with O_CREAT: the place of the file that is opened, which may not be there yet.
    A link as the last component is followed, also if its target is missing; a name with a slash behind
    it is not created *)
Definition slashes (cs : list gostr) : bool := forallb (λ c, bool_decide (c = [])) cs.
Fixpoint open_walk (links : nat) (deny : place → bool) (s : tree) : place → list gostr → res place :=
  fix go (cur : place) (cs : list gostr) : res place :=
    match cs with
    | [] => Err EISDIR
    | c :: r =>
      match s cur with
      | Some NDir =>
        if bool_decide (c = []) then go cur r
        else if deny cur then Err EACCES
        else if bool_decide (c = dot) then go cur r
        else if bool_decide (c = dotdot) then go (up cur) r
        else match s (cur ++ [c]) with
          | None => if bool_decide (r = []) then Ok (cur ++ [c]) else Err (if slashes r then EISDIR else ENOENT)
          | Some NDir => go (cur ++ [c]) r
          | Some (NFile _) => if bool_decide (r = []) then Ok (cur ++ [c]) else Err (if slashes r then EISDIR else ENOTDIR)
          | Some (NLink t) =>
            match links with
            | O => Err ELOOP
            | S k => open_walk k deny s (if is_abs t then [] else cur) (comps t ++ r)
            end
          end
      | _ => Err ENOTDIR
      end
    end.
Definition open_place (P : proc) (s : tree) (p : gostr) : res place :=
  if bool_decide (p = []) then Err ENOENT else open_walk 40 (deny P) s (if is_abs p then [] else cwd P) (comps p).
Definition content (s : tree) (q : place) : gostr := match s q with Some (NFile x) => x | _ => [] end.
(** ioutil.ReadFile with the error dropped *)
Definition read_file (P : proc) (s : tree) (p : gostr) : gostr :=
  match namei P s true p with Ok q => content s q | Err _ => [] end.
(** os.Remove of something that is not a directory, with the error dropped *)
Definition remove_quiet (P : proc) (s : tree) (p : gostr) : tree :=
  match lookup_parent P s p with
  | Ok (LName d c) => match s (d ++ [c]) with Some NDir => s | _ => set s (d ++ [c]) None end
  | _ => s
  end.

(** a failed system call, or a Write that failed after some bytes *)
Inductive uerr := USys (e : errno) | UWrite.
(** breakpoint_continue.go:46-59; [lim]: Write fails after so many bytes *)
Definition put_content (P : proc) (s : tree) (data file dir : gostr) (n : Z) (lim : option nat) : tree * gostr * option uerr :=
  let path := dir ++ file ++ str "_" ++ int_to_string n in
  match open_place P s path with
  | Err e => (s, path, Some (USys e))
  | Ok q =>
    match lim with
    | None => (set s q (Some (NFile data)), path, None)
    | Some k => (set s q (Some (NFile (take k data))), path, Some UWrite)
    end
  end.
(** breakpoint_continue.go:27-35; the total is not used *)
Definition bp_continue (P : proc) (s : tree) (data file : gostr) (n total : Z) (md5 : gostr) (lim : option nat) : go (tree * gostr * option uerr) :=
  let path := bp_dir ++ md5 ++ str "/" in
  '(s1, e) ← mk_dir P s path;
  match e with
  | Some e => Ret (s1, path, Some (USys e))
  | None => Ret (put_content P s1 data file path n lim)
  end.
(** breakpoint_continue.go:72-79: [i] is the index k of the loop, [m] the entries left, [q] the open file;
    [lim]: the Write for entry k fails after some bytes *)
Fixpoint append_chunks (P : proc) (s : tree) (q : place) (file md5 : gostr) (lim : option (nat * nat)) (i m : nat) : tree * option uerr :=
  match m with
  | O => (s, None)
  | S m =>
    let x := read_file P s (bp_dir ++ md5 ++ str "/" ++ file ++ str "_" ++ int_to_string (Z.of_nat i)) in
    let bad := match lim with Some (k, j) => if (k =? i)%nat then Some j else None | None => None end in
    match bad with
    | Some j => (remove_quiet P (set s q (Some (NFile (content s q ++ take j x)))) (done_dir ++ file), Some UWrite)
    | None => append_chunks P (set s q (Some (NFile (content s q ++ x)))) q file md5 lim (S i) m
    end
  end.
(** breakpoint_continue.go:61-81; [rd] is what ReadDir answers for a directory: of it only the length is
    used.  The error of MkdirAll is dropped.  The file is opened, and so created, before the first chunk
    is read. *)
Definition mk_file (P : proc) (rd : place → list gostr) (s : tree) (file md5 : gostr) (lim : option (nat * nat)) : go (tree * gostr * option uerr) :=
  let path := done_dir ++ file in
  match namei P s true (bp_dir ++ md5) with
  | Err e => Ret (s, path, Some (USys e))
  | Ok d =>
    match s d with
    | Some NDir =>
      '(s1, _) ← mk_dir P s done_dir;
      match open_place P s1 path with
      | Err e => Ret (s1, path, Some (USys e))
      | Ok q => let '(s2, e) := append_chunks P (set s1 q (Some (NFile (content s1 q)))) q file md5 lim 0 (length (rd d)) in Ret (s2, path, e)
      end
    | _ => Ret (s, path, Some (USys ENOTDIR))
    end
  end.
(** breakpoint_continue.go:83-86 *)
Definition rm_chunk (P : proc) (s : tree) (md5 : gostr) : tree * option errno := del_file P s (bp_dir ++ md5).
