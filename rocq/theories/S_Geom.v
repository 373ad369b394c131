(** What spherical coordinates and field scans are. *)
From Verif Require Export S_Vec M_Geom.
Open Scope R_scope.

(** The point with polar angle theta from +z, azimuth phi from +x and distance r. *)
Definition point (theta phi r : R) : cvec := CV (r * (sin theta * cos phi)) (r * (sin theta * sin phi)) (r * cos theta).
(** Normal form of the spherical coordinates of v. *)
Definition spherical_of (v : cvec) (theta phi r : R) : Prop :=
  v = point theta phi r /\ 0 <= r /\ 0 <= theta <= PI /\ - PI < phi <= PI /\
  (r = 0 -> theta = 0) /\ (sin theta = 0 -> phi = 0).
(** x degrees are t radians *)
Definition degrees (x t : R) : Prop := x * PI = 180 * t.
(** n evenly spaced values from a to b. *)
Definition evenly (a b : R) (n : nat) (xs : list R) : Prop :=
  length xs = n /\ (forall x, nth_error xs 0 = Some x -> x = a) /\
  ((2 <= n)%nat -> nth_error xs (n - 1) = Some b) /\
  exists step, forall i x y, nth_error xs i = Some x -> nth_error xs (S i) = Some y -> y = x + step.
(** One field per value. *)
Definition fields_of (f : R -> cvec) (hs : list R) (vs : list cvec) : Prop := Forall2 (fun h v => v = f h) hs vs.
(** There and back again. *)
Definition there_and_back {A} (xs ys : list A) : Prop :=
  length ys = (2 * length xs - 1)%nat /\
  (forall i, (i < length xs)%nat -> nth_error ys i = nth_error xs i) /\
  (forall i, (i < length xs)%nat -> nth_error ys (length ys - 1 - i) = nth_error xs i).
