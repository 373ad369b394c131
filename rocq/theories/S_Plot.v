(** Vocabulary for the geometry of the figures. *)
From Verif Require Export M_Plot.
From Coq Require Import Sorted.
Open Scope R_scope.

(** ** Trajectories *)
Definition len2 (p : cvec) : R := cx p * cx p + cy p * cy p + cz p * cz p.
Definition sum_len2 (ps : list cvec) : R := fold_right Rplus 0 (map len2 ps).
Definition shrink (k : R) (p : cvec) : cvec := CV (k * cx p) (k * cy p) (k * cz p).
(** The points given by their coordinates *)
Definition coordinates (x y z : list R) (ps : list cvec) : Prop := x = map cx ps /\ y = map cy ps /\ z = map cz ps.

(** ** Maps *)
Definition selection (n r : nat) (idx : list nat) : Prop := length idx = r /\ NoDup idx /\ forall i, In i idx -> (i < n)%nat.
Inductive lex : list nat -> list nat -> Prop :=
| lex_head a b l m : (a < b)%nat -> lex (a :: l) (b :: m)
| lex_tail a l m : lex l m -> lex (a :: l) (a :: m).
Fixpoint falling (n r : nat) : nat := match r with O => 1 | S k => ((n - k) * falling n k)%nat end.
(** an index into the map and into every axis *)
Definition fits (m : ndarray) (axes : list (list R)) (idx : list nat) : Prop :=
  length idx = length (nd_shape m) /\ (forall k, (k < length idx)%nat -> (nth k idx 0 < nth k (nd_shape m) 0)%nat) /\ forall k, (k < length axes)%nat -> (nth k idx 0 < length (nth k axes []))%nat.

(** ** Parallel coordinates *)
Definition least_of (l : list R) (v : R) : Prop := In v l /\ forall w, In w l -> v <= w.
Definition greatest_of (l : list R) (v : R) : Prop := In v l /\ forall w, In w l -> w <= v.

(** ** Stacks *)
Definition sum_to (k : nat) (l : list R) : R := fold_right Rplus 0 (firstn k l).
Definition flip {A} (b : bool) (l : list A) : list A := if b then rev l else l.
(** the middle of an arrow and its extent *)
Definition middle (a : R * R * (R * R)) : R * R := let '(x, y, (u, v)) := a in ((x + u) / 2, (y + v) / 2).
Definition extent (a : R * R * (R * R)) : R * R := let '(x, y, (u, v)) := a in (u - x, v - y).

(** the entries of four lists at the same place *)
Definition zipped {C L} (hs : list R) (angs : list (option R)) (cs : list C) (ls : list L) (k : nat) (h : R) (a : option R) (c : C) (l : L) : Prop :=
  nth_error hs k = Some h /\ nth_error angs k = Some a /\ nth_error cs k = Some c /\ nth_error ls k = Some l.
(** layer upon layer from [oy] upwards: rectangles, labels, at most one arrow per layer, and the height reached *)
Definition stacked {C L} (w pad ox r : R) (hs : list R) (angs : list (option R)) (cs : list C) (ls : list L) (oy : R)
    (rects : list (R * R * R * R * C)) (texts : list (R * R * L)) (arrows : list (R * R * (R * R))) (top : R) : Prop :=
  (forall k q, nth_error rects k = Some q <-> exists h a c l, zipped hs angs cs ls k h a c l /\ q = (ox, oy + sum_to k hs, w, h, c)) /\
  (forall k q, nth_error texts k = Some q <-> exists h a c l, zipped hs angs cs ls k h a c l /\ q = (ox - pad, oy + sum_to k hs + h / 2, l)) /\
  (exists groups, arrows = concat groups /\ forall k g, nth_error groups k = Some g <-> exists h a c l, zipped hs angs cs ls k h a c l /\
     match a with
     | None => g = []
     | Some d => exists e, g = [e] /\ middle e = ((ox + w) / 2, oy + sum_to k hs + h / 2) /\ extent e = (r * cos (d * PI / 180), r * sin (d * PI / 180))
     end) /\
  top = oy + sum_to (length rects) hs.
