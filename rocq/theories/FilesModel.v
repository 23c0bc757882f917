(** * Model of help/utils/files.go: CopyFile, ScanDir and help/utils/breakpoint_continue.go

    Files are byte lists in a map from path strings; path strings are not resolved further (no
    links, no two spellings of a path).  Directories with chunks are maps from entry names to
    contents, one per FileMd5.  Failing system calls are inputs of the model. *)
From Verif Require Export GoStr ConvModel.
From stdpp Require Export gmap.
Local Open Scope Z_scope.

Notation files := (gmap gostr (list Z)).

(** ** files.go:199-212 CopyFile *)
(** writing [data] at the start of a file without truncating it *)
Definition overwrite (old data : list Z) : list Z := data ++ drop (length data) old.
(** the result: files afterwards, bytes written, success; [can_open] says whether the destination
    can be opened for writing, [lim] after how many bytes io.Copy fails, if at all *)
Definition copy_file (fs : files) (dst src : gostr) (can_open : bool) (lim : option nat) : files * Z * bool :=
  match fs !! src with
  | None => (fs, 0, false)
  | Some data =>
    if can_open then
      let got := match lim with Some n => take n data | None => data end in
      (<[dst := overwrite (default [] (fs !! dst)) got]> fs, Z.of_nat (length got), bool_decide (lim = None))
    else (fs, 0, false)
  end.

(** ** files.go:174-193 ScanDir *)
(** a directory entry: a file (or symbolic link: ReadDir does not follow it), or a directory that
    can be read or not *)
Inductive node := File | Dir (readable : bool) (children : list (gostr * node)).
Definition trim_suffix (s : gostr) : gostr := match last s with Some 47 => take (length s - 1) s | _ => s end.
Fixpoint scan (dir : gostr) (t : node) : option (list gostr) :=
  match t with
  | File => None                                   (* ReadDir of a file *)
  | Dir readable cs =>
    if readable then
      (fix go (cs : list (gostr * node)) : option (list gostr) :=
        match cs with
        | [] => Some []
        | (name, c) :: r =>
          let file := dir ++ [47] ++ name in
          match c with
          | File => (λ l, file :: l) <$> go r
          | Dir _ _ => match scan (trim_suffix file) c with None => None | Some l => (λ l', l ++ l') <$> go r end
          end
        end) cs
    else None
  end.
(** [root] gives what a path denotes; the empty path denotes nothing *)
Definition scan_dir (root : gostr → option node) (dir : gostr) : option (list gostr) :=
  let d := trim_suffix dir in
  if bool_decide (d = []) then None else match root d with None => None | Some t => scan d t end.

(** ** breakpoint_continue.go *)
Record store := Store { st_chunks : gmap gostr files; st_done : files }.
(** breakpoint_continue.go:47: the name of a chunk *)
Definition chunk_name (file : gostr) (n : Z) : gostr := file ++ [95] ++ int_to_string n.
(** breakpoint_continue.go:27-35, 46-59: os.Create truncates; how a call ends: complete, before
    the file is created, or after [k] bytes (a failed write or a crash) *)
Inductive put_end := PutDone | PutNothing | PutPart (k : nat).
Definition put_chunk (s : store) (content : list Z) (file : gostr) (n : Z) (md5 : gostr) (e : put_end) : store * bool :=
  let d := default ∅ (st_chunks s !! md5) in
  let with_dir d' := Store (<[md5 := d']> (st_chunks s)) (st_done s) in
  match e with
  | PutDone => (with_dir (<[chunk_name file n := content]> d), true)
  | PutNothing => (with_dir d, false)
  | PutPart k => (with_dir (<[chunk_name file n := take k content]> d), false)
  end.
(** breakpoint_continue.go:61-81: a missing chunk reads as nothing; a failed write removes the
    result, a crash leaves the chunks written so far *)
Inductive make_end := MakeDone | MakeNoOpen | MakeFails | MakeCrash (k : nat).
Definition read_chunk (d : files) (file : gostr) (k : nat) : list Z := default [] (d !! chunk_name file (Z.of_nat k)).
Definition make_file (s : store) (file md5 : gostr) (e : make_end) : store * bool :=
  match st_chunks s !! md5 with
  | None => (s, false)
  | Some d =>
    let app n := Store (st_chunks s) (<[file := default [] (st_done s !! file) ++ (seq 0 n ≫= read_chunk d file)]> (st_done s)) in
    match e with
    | MakeDone => (app (size d), true)
    | MakeNoOpen => (s, false)
    | MakeFails => (Store (st_chunks s) (delete file (st_done s)), false)
    | MakeCrash k => (app (k `min` size d)%nat, false)
    end
  end.
(** breakpoint_continue.go:83-86 *)
Definition remove_chunk (s : store) (md5 : gostr) : store := Store (delete md5 (st_chunks s)) (st_done s).
