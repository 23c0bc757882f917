(** * Model of help/utils/files.go: IsMaliciousPath and help/utils/zip.go: Unzip

    path/filepath's Clean and Join (Unix) are modelled on path components instead of bytes.
    Symbolic links are not modelled: a path denotes the place its components say.  The archive
    reader and the operating system are parameters: which calls fail and how much is copied. *)
From Verif Require Export GoStr.
Local Open Scope Z_scope.

Definition dot : gostr := [46].
Definition dotdot : gostr := [46; 46].
(** the parts between slashes *)
Fixpoint comps (s : gostr) : list gostr :=
  match s with
  | [] => [[]]
  | c :: r => if c =? 47 then [] :: comps r else match comps r with x :: l => (c :: x) :: l | [] => [[c]] end
  end.
(** a cleaned path: rooted or not, and its components; "." has none *)
Record path := Path { p_rooted : bool; p_comps : list gostr }.
(** filepath.Clean: one component; the stack is kept in reverse *)
Definition clean_step (rooted : bool) (st : list gostr) (c : gostr) : list gostr :=
  if bool_decide (c = []) || bool_decide (c = dot) then st
  else if bool_decide (c = dotdot) then
    match st with
    | x :: r => if bool_decide (x = dotdot) then c :: st else r
    | [] => if rooted then [] else [c]
    end
  else c :: st.
Definition is_abs (s : gostr) : bool := has_prefix [47] s.
Definition clean (s : gostr) : path := Path (is_abs s) (reverse (foldl (clean_step (is_abs s)) [] (comps s))).
(** filepath.Join(base, p) *)
Definition path_join (base p : gostr) : path := if bool_decide (base = []) then clean p else clean (base ++ [47] ++ p).
(** filepath.Dir of a cleaned path *)
Definition path_dir (q : path) : path := Path (p_rooted q) (take (length (p_comps q) - 1) (p_comps q)).

(** files.go:317-319 *)
Definition is_malicious (p : gostr) : bool := is_abs p || match go_index dotdot p with Some _ => true | None => false end.

(** zip.go:19-56 *)
Record entry := Entry { e_name : gostr; e_isdir : bool; e_data : list Z }.
(** what the system answers for an entry: MkdirAll, Open, OpenFile, and io.Copy's success and count *)
Record answer := Answer { a_mkdir : bool; a_open : bool; a_create : bool; a_copy : bool; a_count : nat }.
Inductive fs_op := OMkdir (p : path) | OWrite (p : path) (data : list Z).
Fixpoint unzip (dest : gostr) (es : list entry) (ans : nat → answer) (i : nat) : list fs_op * option (list path) :=
  match es with
  | [] => ([], Some [])
  | e :: r =>
    let fpath := path_join dest (e_name e) in
    let a := ans i in
    let '(ops, res) := unzip dest r ans (S i) in
    let res' := (λ l, fpath :: l) <$> res in
    if e_isdir e then (OMkdir fpath :: ops, res')
    else if negb (a_mkdir a) then ([OMkdir (path_dir fpath)], None)
    else if negb (a_open a) then ([OMkdir (path_dir fpath)], None)
    else if negb (a_create a) then ([OMkdir (path_dir fpath)], None)
    else if negb (a_copy a) then ([OMkdir (path_dir fpath); OWrite fpath (take (a_count a) (e_data e))], None)
    else (OMkdir (path_dir fpath) :: OWrite fpath (e_data e) :: ops, res')
  end.
