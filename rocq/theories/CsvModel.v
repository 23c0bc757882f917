(** * Model of ReadCsv, help/utils/csv.go, with encoding/csv's Reader

    A file is its bytes; [None] for a file that cannot be opened or whose reading fails.  Positions in
    error messages are left out.  The settings are those of csv.NewReader: comma 44, no comments,
    no LazyQuotes, FieldsPerRecord 0. *)
From Verif Require Import GoStr TextModel.
Local Open Scope Z_scope.

(** encoding/csv reader.go, readLine: the next line with its end, the rest of the file; [None] is io.EOF.
    A carriage return before the end of the line, or before the end of the file, is dropped. *)
Definition drop_cr (l : gostr) : gostr := match reverse l with 13 :: r => reverse r | _ => l end.
Definition read_line (s : gostr) : option (gostr * gostr) :=
  match s with
  | [] => None
  | _ => match go_index [10] s with
    | Some i => Some (drop_cr (take i s) ++ [10], drop (S i) s)
    | None => Some (drop_cr s, [])
    end
  end.
(** lengthNL *)
Definition length_nl (l : gostr) : nat := match reverse l with 10 :: _ => 1 | _ => 0 end.
Definition cut_nl (l : gostr) : gostr := take (length l - length_nl l) l.

(** readRecord, the loop over the fields: at the start of a field ([None]), or inside a quoted field with
    its text so far; [line] is the rest of the current line, [rest] the rest of the file.
    The result is the record and the rest of the file, or a ParseError. *)
Inductive parsed := Parsed (r : list gostr) (rest : gostr) | ParseErr.
Fixpoint parse (fuel : nat) (q : option gostr) (line rest : gostr) (acc : list gostr) : go parsed :=
  match fuel with O => Diverge | S fuel =>
    match q with
    | None =>
      if decide (head line = Some 34) then parse fuel (Some []) (tail line) rest acc
      else match go_index [44] line with
        | Some i => if bool_decide (34 ∈ take i line) then Ret ParseErr else parse fuel None (drop (S i) line) rest (acc ++ [take i line])
        | None => let f := cut_nl line in if bool_decide (34 ∈ f) then Ret ParseErr else Ret (Parsed (acc ++ [f]) rest)
        end
    | Some cur =>
      match go_index [34] line with
      | Some i =>
        let cur := cur ++ take i line in
        let l := drop (S i) line in
        if decide (head l = Some 34) then parse fuel (Some (cur ++ [34])) (tail l) rest acc
        else if decide (head l = Some 44) then parse fuel None (tail l) rest (acc ++ [cur])
        else if decide (length_nl l = length l) then Ret (Parsed (acc ++ [cur]) rest) else Ret ParseErr
      | None =>
        match line with
        | [] => Ret ParseErr
        | _ => match read_line rest with
          | Some (l, rest) => parse fuel (Some (cur ++ line)) l rest acc
          | None => parse fuel (Some (cur ++ line)) [] rest acc
          end
        end
      end
    end
  end.
(** ReadAll: empty lines are skipped; [n] is FieldsPerRecord, 0 before the first record *)
Fixpoint read_all (fuel : nat) (n : nat) (s : gostr) : go (option (list (list gostr))) :=
  match fuel with O => Diverge | S fuel =>
    match read_line s with
    | None => Ret (Some [])
    | Some (line, rest) =>
      if decide (length line = length_nl line) then read_all fuel n rest
      else
        p ← parse (S (S (length line + length rest))) None line rest [];
        match p with
        | ParseErr => Ret None
        | Parsed r rest => if decide (n = 0%nat ∨ length r = n) then (o ← read_all fuel (length r) rest; Ret (option_map (cons r) o)) else Ret None
        end
    end
  end.
(** csv.go:15-32; nil is [None] *)
Definition read_csv (file : option gostr) : go (option (list (list gostr))) :=
  match file with None => Ret None | Some s => read_all (S (length s)) 0 s end.
