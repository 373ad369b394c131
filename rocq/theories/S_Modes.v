(** Vocabulary for modes, roots and suggestions. *)
From Verif Require Export M_Modes.
From Coq Require Import Sorted.
Open Scope R_scope.
Open Scope st_scope.

(** The eigenvalues that are counted and their frequencies *)
Definition oscillating (vals : list complex) : list complex := filter (fun l => if Rlt_dec 0 (snd l) then true else false) vals.
(** [v] is an eigenvector of the real matrix [a]. *)
Definition cdot (row : list R) (v : list complex) : complex :=
  fold_right (fun p acc => (fst p * fst (snd p) + fst acc, fst p * snd (snd p) + snd acc)) (0, 0) (combine row v).
Definition eigenvector (a : list (list R)) (l : complex) (v : list complex) : Prop :=
  length v = length a /\ (exists z, In z v /\ z <> (0, 0)) /\ map (fun row => cdot row v) a = map (times l) v.
(** [rows] is a matrix whose columns are eigenvectors for [vals]. *)
Definition column (rows : list (list complex)) (k : nat) : list complex := map (fun r => nth k r (0, 0)) rows.
Definition eigensystem (a : list (list R)) (vals : list complex) (rows : list (list complex)) : Prop :=
  length vals = length a /\ length rows = length a /\ (forall r, In r rows -> length r = length a) /\
  forall k, (k < length a)%nat -> eigenvector a (nth k vals (0, 0)) (column rows k).
(** The nearest hundredth, ties to the even one *)
Definition hundredth (x y : R) : Prop :=
  exists k : Z, y = IZR k / 100 /\ Rabs (x - y) <= 1 / 200 /\ (Rabs (x - y) = 1 / 200 -> Z.even k = true).
(** One suggestion evaluated on its own *)
Definition evaluate {X Y} (fn : X -> result Y) (error_fn : Y -> result R) (x : X) : result R := y <-- fn x ;; error_fn y.
Definition least (l : list R) (v : R) : Prop := In v l /\ forall w, In w l -> v <= w.
