(** * Paths below a directory *)
From Verif Require Import GoBase GoStr PathModel.

(** [q] lies in [b]: its components start with those of [b] and never go up again *)
Definition inside (b q : path) : Prop := p_rooted q = p_rooted b ∧ ∃ r, p_comps q = p_comps b ++ r ∧ str ".." ∉ r.
(** where a walk along components leads, from a place given by the names below the root; nothing is
    above the root *)
Definition walk_step (at' : list gostr) (c : gostr) : list gostr :=
  if decide (c = [] ∨ c = str ".") then at' else if decide (c = str "..") then take (length at' - 1) at' else at' ++ [c].
Definition walk (from : list gostr) (cs : list gostr) : list gostr := foldl walk_step from cs.
(** [q] is [b] or one of its ancestors *)
Definition ancestor (q b : path) : Prop := p_rooted q = p_rooted b ∧ ∃ r, p_comps b = p_comps q ++ r.
