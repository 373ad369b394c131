(** Declarative vocabulary for line shapes, analytic drivers and detrending. *)
From Verif Require Export M_Shapes.
From Coq Require Export Permutation Sorted.
Open Scope R_scope.

(** The resonance curve with half width [w], centre [c]: even part [p], odd part [q] at the half width. *)
Definition Lorentz (x w p : R) : R := p / (1 + (x / w) ^ 2).
Definition Dispersion (x w q : R) : R := q * (x / w) / (1 + (x / w) ^ 2).

(** [m] is the median of the numbers [xs]. *)
Definition median (xs : list R) (m : R) : Prop :=
  xs <> [] /\ exists s, Permutation xs s /\ StronglySorted Rle s /\
  m = (nth ((length xs - 1) / 2) s 0 + nth (length xs / 2) s 0) / 2.
(** [arr] has [r] rows and [c] columns; entries, rows and columns. *)
Definition sized (arr : list (list R)) (r c : nat) : Prop := length arr = r /\ forall row, In row arr -> length row = c.
Definition entry (arr : list (list R)) (i j : nat) : R := nth j (nth i arr []) 0.
Definition column (arr : list (list R)) (j : nat) : list R := map (fun row => nth j row 0) arr.
