(** * Model of the functions of help/utils/files.go that look at or change the file tree

    The operating system is Linux: paths are walked component by component, symbolic links are
    followed, at most forty of them.  Hard links, mount points, name length limits, empty link targets,
    quotas and concurrent changes are not modelled.  [deny] tells the directories the process may not
    search.  Nothing else about permissions is modelled: a directory that can be searched can be
    changed. *)
From Verif Require Export GoStr PathModel.
Local Open Scope Z_scope.

Inductive errno := ENOENT | ENOTDIR | EACCES | ELOOP | EEXIST | EINVAL | EISDIR | ENOTEMPTY | EBUSY.
Global Instance errno_dec : EqDecision errno.
Proof. solve_decision. Defined.
Inductive node := NFile (c : gostr) | NDir | NLink (target : gostr).
Global Instance node_dec : EqDecision node.
Proof. solve_decision. Defined.
(** the names from the root *)
Notation place := (list gostr).
Definition tree := place → option node.
Inductive res (A : Type) := Ok (a : A) | Err (e : errno).
Arguments Ok {A}. Arguments Err {A}.

Definition up (p : place) : place := take (length p - 1) p.
Definition here (c : gostr) : bool := bool_decide (c = []) || bool_decide (c = dot).
(** path_resolution(7); [follow]: the last component is followed if it is a link *)
Fixpoint walk (links : nat) (deny : place → bool) (s : tree) (follow : bool) : place → list gostr → res place :=
  fix go (cur : place) (cs : list gostr) : res place :=
    match cs with
    | [] => Ok cur
    | c :: r =>
      match s cur with
      | Some NDir =>
        if bool_decide (c = []) then go cur r
        else if deny cur then Err EACCES
        else if bool_decide (c = dot) then go cur r
        else if bool_decide (c = dotdot) then go (up cur) r
        else match s (cur ++ [c]) with
          | None => Err ENOENT
          | Some NDir => go (cur ++ [c]) r
          | Some (NFile _) => if bool_decide (r = []) then Ok (cur ++ [c]) else Err ENOTDIR
          | Some (NLink t) =>
            if bool_decide (r = []) && negb follow then Ok (cur ++ [c])
            else match links with
              | O => Err ELOOP
              | S k => walk k deny s follow (if is_abs t then [] else cur) (comps t ++ r)
              end
          end
      | _ => Err ENOTDIR
      end
    end.
(** the process: its working directory, as a place and as os.Getwd reports it *)
Record proc := Proc { cwd : place; wd : gostr; deny : place → bool }.
Definition namei (P : proc) (s : tree) (follow : bool) (p : gostr) : res place :=
  if bool_decide (p = []) then Err ENOENT else walk 40 (deny P) s follow (if is_abs p then [] else cwd P) (comps p).
(** os.Stat and os.Lstat *)
Definition stat_of (follow : bool) (P : proc) (s : tree) (p : gostr) : res node :=
  match namei P s follow p with Err e => Err e | Ok q => match s q with Some n => Ok n | None => Err ENOENT end end.
Definition stat := stat_of true.
Definition lstat := stat_of false.

(** files.go:24-36; the error "have same file" is [None] *)
Definition path_exists (P : proc) (s : tree) (p : gostr) : bool * option (option errno) :=
  match stat P s p with
  | Ok NDir => (true, None)
  | Ok _ => (false, Some None)
  | Err ENOENT => (false, None)
  | Err e => (false, Some (Some e))
  end.
(** files.go:103-109 *)
Definition file_exist (P : proc) (s : tree) (p : gostr) : bool :=
  match lstat P s p with Ok NDir => false | Ok _ => true | Err e => negb (bool_decide (e = ENOENT)) end.
(** files.go:229-243 *)
Definition is_dir (P : proc) (s : tree) (p : gostr) : bool := match stat P s p with Ok NDir => true | _ => false end.
Definition is_file (P : proc) (s : tree) (p : gostr) : bool := negb (is_dir P s p).
(** files.go:325-331 *)
Definition file_is_existed (P : proc) (s : tree) (p : gostr) : bool :=
  match stat P s p with Err ENOENT => false | _ => true end.

(** ** Changing the tree *)
Definition set (s : tree) (p : place) (n : option node) : tree := λ q, if bool_decide (q = p) then n else s q.
(** the directory of the last component, which is not looked up, and that component without slashes;
    no component is the root *)
Fixpoint drop_empty (cs : list gostr) : list gostr :=
  match cs with [] :: r => drop_empty r | _ => cs end.
Inductive last_comp := LRoot | LHere (dir : place) | LUp (dir : place) | LName (dir : place) (c : gostr).
Definition lookup_parent (P : proc) (s : tree) (p : gostr) : res last_comp :=
  if bool_decide (p = []) then Err ENOENT
  else match drop_empty (reverse (comps p)) with
    | [] => Ok LRoot
    | c :: r =>
      match walk 40 (deny P) s true (if is_abs p then [] else cwd P) (reverse r) with
      | Err e => Err e
      | Ok d =>
        match s d with
        | Some NDir => if deny P d then Err EACCES else Ok (if bool_decide (c = dot) then LHere d else if bool_decide (c = dotdot) then LUp d else LName d c)
        | _ => Err ENOTDIR
        end
      end
    end.
(** mkdir(2) *)
Definition mkdir (P : proc) (s : tree) (p : gostr) : tree * option errno :=
  match lookup_parent P s p with
  | Err e => (s, Some e)
  | Ok (LName d c) => match s (d ++ [c]) with Some _ => (s, Some EEXIST) | None => (set s (d ++ [c]) (Some NDir), None) end
  | Ok _ => (s, Some EEXIST)
  end.
(** os.MkdirAll: the path before the last element, if there is one *)
Fixpoint drop_while (f : Z → bool) (l : gostr) : gostr :=
  match l with c :: r => if f c then drop_while f r else l | [] => [] end.
Definition parent_path (p : gostr) : option gostr :=
  let r := drop_while (λ c, negb (c =? 47)) (drop_while (λ c, c =? 47) (reverse p)) in
  if (1 <? length r)%nat then Some (reverse (tail r)) else None.
Fixpoint mkdir_all (fuel : nat) (P : proc) (s : tree) (p : gostr) : go (tree * option errno) :=
  match fuel with O => Diverge | S fuel =>
    match stat P s p with
    | Ok NDir => Ret (s, None)
    | Ok _ => Ret (s, Some ENOTDIR)
    | Err _ =>
      '(s1, e) ← match parent_path p with Some q => mkdir_all fuel P s q | None => Ret (s, None) end;
      match e with
      | Some e => Ret (s1, Some e)
      | None =>
        match mkdir P s1 p with
        | (s2, None) => Ret (s2, None)
        | (s2, Some e) => match lstat P s2 p with Ok NDir => Ret (s2, None) | _ => Ret (s2, Some e) end
        end
      end
    end
  end.
(** files.go:249-251 *)
Definition mk_dir (P : proc) (s : tree) (p : gostr) : go (tree * option errno) := mkdir_all (S (length p)) P s p.
(** files.go:41-56; the outer err is never assigned *)
Fixpoint create_dir (P : proc) (s : tree) (dirs : list gostr) : go (tree * option (option errno)) :=
  match dirs with
  | [] => Ret (s, None)
  | v :: r =>
    match path_exists P s v with
    | (_, Some e) => Ret (s, Some e)
    | (true, None) => create_dir P s r
    | (false, None) =>
      '(s1, e) ← mk_dir P s v;
      match e with Some e => Ret (s1, Some (Some e)) | None => create_dir P s1 r end
    end
  end.

(** filepath.Abs and filepath.Dir of its result *)
Definition path_str (cs : place) : gostr := if bool_decide (cs = []) then [47] else cs ≫= λ c, 47 :: c.
Definition abs_path (P : proc) (p : gostr) : place := p_comps (if is_abs p then clean p else path_join (wd P) p).
(** rename(2) of two absolute clean paths, with os.Rename's test of the new name *)
Definition below (a b : place) : bool := bool_decide (take (length a) b = a).
Definition move (s : tree) (a b : place) : tree :=
  λ q, if below b q then s (a ++ drop (length b) q) else if below a q then None else s q.
Definition rename (P : proc) (s : tree) (old new : gostr) : tree * option errno :=
  match lookup_parent P s old, lookup_parent P s new with
  | Err e, _ | _, Err e => (s, Some e)
  | Ok (LName d c), Ok (LName d' c') =>
    let a := d ++ [c] in let b := d' ++ [c'] in
    match s a with
    | None => (s, Some ENOENT)
    | Some n =>
      if bool_decide (a = b) then (s, None)
      else if below a b then (s, Some EINVAL)
      else match n, s b with
        | NDir, Some NDir => (s, Some ENOTEMPTY)       (* never: see os_rename *)
        | NDir, Some _ => (s, Some ENOTDIR)
        | _, Some NDir => (s, Some EISDIR)
        | _, _ => (move s a b, None)
        end
    end
  | _, _ => (s, Some EBUSY)
  end.
Definition os_rename (P : proc) (s : tree) (old new : gostr) : tree * option errno :=
  match lstat P s new with
  | Ok NDir =>
    match namei P s false old, namei P s false new with
    | Err e, _ => (s, Some e)
    | Ok a, Ok b => if bool_decide (new = old) || negb (bool_decide (a = b)) then (s, Some EEXIST) else rename P s old new
    | _, _ => (s, Some EEXIST)
    end
  | _ => rename P s old new
  end.
(** files.go:62-89; os.Getwd does not fail *)
Definition file_move (P : proc) (s : tree) (src dst : gostr) : go (tree * option errno) :=
  if bool_decide (dst = []) then Ret (s, None)
  else
    let a := abs_path P src in
    let b := abs_path P dst in
    let dir := path_str (up b) in
    match stat P s dir with
    | Ok _ => Ret (os_rename P s (path_str a) (path_str b))
    | Err _ =>
      '(s1, e) ← mk_dir P s dir;
      match e with
      | Some e => Ret (s1, Some e)
      | None =>
        match stat P s1 dir with
        | Ok _ => Ret (os_rename P s1 (path_str a) (path_str b))
        | Err _ =>                                       (* Redirect, the second time *)
          '(s2, e) ← mk_dir P s1 dir;
          match e with Some e => Ret (s2, Some e) | None => Ret (os_rename P s2 (path_str a) (path_str b)) end
        end
      end
    end.

(** os.RemoveAll (removeall_at.go): everything below a place, with or without the place *)
Definition prune (s : tree) (p : place) : tree := λ q, if below p q then None else s q.
Definition empty_dir (s : tree) (p : place) : tree := λ q, if below p q && negb (bool_decide (q = p)) then None else s q.
Definition ends_with_dot (p : gostr) : bool :=
  bool_decide (p = dot) || match reverse p with 46 :: 47 :: _ => true | _ => false end.
(** files.go:95-97.  Remove's own attempt is part of the recursion, except for its errors. *)
Definition del_file (P : proc) (s : tree) (p : gostr) : tree * option errno :=
  if bool_decide (p = []) then (s, None)
  else if ends_with_dot p then (s, Some EINVAL)
  else match lookup_parent P s p with
    | Err ENOENT => (s, None)
    | Err e => (s, Some e)
    | Ok LRoot => (empty_dir s [], Some EBUSY)
    | Ok (LHere d) => (empty_dir s d, Some EINVAL)   (* "./": only "." and "…/." are refused before *)
    | Ok (LUp d) => (empty_dir s (up d), Some ENOTEMPTY)
    | Ok (LName d c) => match s (d ++ [c]) with None => (s, None) | Some _ => (prune s (d ++ [c]), None) end
    end.
