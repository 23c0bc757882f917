(** * Model of help/utils/zip.go on the file tree

    PathModel.v has Unzip's path strings and the order of its calls; here ZipFiles and Unzip run on the
    tree of FsModel.v.  archive/zip is an encoder [enc] of lists of entries and a decoder [dec], both
    parameters; ZfmtModel.v has those of the real format.  Names are shorter than 65536 bytes.  Unzip's archive is read before anything is written, so an entry that overwrites the
    archive has no effect on the entries after it.  A file that ZipFiles reads while it is the archive being
    written is read as empty.  File modes are not modelled. *)
From Verif Require Export FsModel UpfsModel.
From Verif Require Import PathModel.
Local Open Scope Z_scope.

(** strings.Replace(s, old, new, -1) *)
Fixpoint replace_fuel (fuel : nat) (old new s : gostr) : gostr :=
  match fuel with
  | O => s
  | S f => match go_index old s with None => s | Some i => take i s ++ new ++ replace_fuel f old new (drop (i + length old) s) end
  end.
(** an empty old string matches before every character and at the end *)
Fixpoint insert_runes (fuel : nat) (new s : gostr) : gostr :=
  match fuel with
  | O => []
  | S f => match s with [] => new | _ => let k := (decode_rune s).2 in new ++ take k s ++ insert_runes f new (drop k s) end
  end.
Definition go_replace (s old new : gostr) : gostr :=
  if bool_decide (old = new) then s
  else if bool_decide (old = []) then insert_runes (S (length s)) new s
  else replace_fuel (S (length s)) old new s.

(** how writing the archive ends: without failure, with a failure for file [i], or with one in the last Close
    only; [g] is what is in the archive then *)
Inductive zend := ZDone | ZFails (i : nat) (g : gostr) | ZClose (g : gostr).
(** a failed system call, a failed write, or data for a directory entry *)
Inductive zerr := ZSys (e : errno) | ZIo | ZDirData.
Definition ends_slash (n : gostr) : bool := match last n with Some c => c =? 47 | None => false end.
(** zip.go:81-117.  A directory gets an entry before reading it fails; data cannot be written to an entry
    whose name ends with a slash *)
Fixpoint zip_loop (P : proc) (s : tree) (files : list gostr) (old new : gostr) (z : zend) (i : nat) : list entry * option zerr :=
  match files with
  | [] => ([], None)
  | f :: r =>
    match namei P s true f with
    | Err e => ([], Some (ZSys e))
    | Ok p =>
      let n := go_replace f old new in
      if match z with ZFails j _ => (j =? i)%nat | _ => false end then ([], Some ZIo)
      else match s p with
      | Some (NFile x) =>
        if ends_slash n && negb (bool_decide (x = [])) then ([Entry n false []], Some ZDirData)
        else let '(es, e) := zip_loop P s r old new z (S i) in (Entry n false x :: es, e)
      | _ => ([Entry n true []], Some (ZSys EISDIR))
      end
    end
  end.
(** zip.go:67-119; the error of zipWriter.Close is dropped *)
Definition zip_files (P : proc) (enc : list entry → gostr) (s : tree) (filename : gostr) (files : list gostr) (old new : gostr) (z : zend) : tree * option zerr :=
  match open_place P s filename with
  | Err e => (s, Some (ZSys e))
  | Ok q =>
    let s1 := set s q (Some (NFile [])) in
    let '(es, e) := zip_loop P s1 files old new z 0 in
    (set s1 q (Some (NFile (match z, e with ZClose g, _ | ZFails _ g, Some ZIo => g | _, _ => enc es end))), e)
  end.

(** the string of a cleaned path, and filepath.Join of two elements *)
Definition rel_str (cs : list gostr) : gostr := match cs with [] => dot | c :: r => c ++ (r ≫= λ c, 47 :: c) end.
Definition path_string (q : path) : gostr := if p_rooted q then path_str (p_comps q) else rel_str (p_comps q).
Definition join_string (a b : gostr) : gostr := if bool_decide (a = []) && bool_decide (b = []) then [] else path_string (path_join a b).
(** FileHeader.Mode: the mode bits, or a slash at the end of the name *)
Definition entry_dir (e : entry) : bool := e_isdir e || ends_slash (e_name e).
(** zip.go:27-55; [lim]: io.Copy for an entry fails after some bytes.  Errors of MkdirAll for a directory entry
    are dropped. *)
Fixpoint unzip_loop (P : proc) (s : tree) (dest : gostr) (es : list entry) (lim : option (nat * nat)) (i : nat) (paths : list gostr) : go (tree * list gostr * option uerr) :=
  match es with
  | [] => Ret (s, paths, None)
  | e :: r =>
    let fpath := join_string dest (e_name e) in
    if entry_dir e then '(s1, _) ← mk_dir P s fpath; unzip_loop P s1 dest r lim (S i) (paths ++ [fpath])
    else
      '(s1, err) ← mk_dir P s (path_string (path_dir (path_join dest (e_name e))));
      match err with
      | Some e => Ret (s1, [], Some (USys e))
      | None =>
        match open_place P s1 fpath with
        | Err e => Ret (s1, [], Some (USys e))
        | Ok q =>
          match match lim with Some (k, j) => if (k =? i)%nat then Some j else None | None => None end with
          | Some j => Ret (set s1 q (Some (NFile (take j (e_data e)))), [], Some UWrite)
          | None => unzip_loop P (set s1 q (Some (NFile (e_data e)))) dest r lim (S i) (paths ++ [fpath])
          end
        end
      end
  end.
(** zip.go:19-26; the second error stands for zip.ErrFormat *)
Definition unzip_file (P : proc) (dec : gostr → option (list entry)) (s : tree) (zipname dest : gostr) (lim : option (nat * nat)) : go (tree * list gostr * option uerr) :=
  match namei P s true zipname with
  | Err e => Ret (s, [], Some (USys e))
  | Ok q =>
    match s q with
    | Some (NFile x) => match dec x with Some es => unzip_loop P s dest es lim 0 [] | None => Ret (s, [], Some (USys EINVAL)) end
    | _ => Ret (s, [], Some (USys EISDIR))
    end
  end.
