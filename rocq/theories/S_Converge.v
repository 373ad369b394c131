(** Specification vocabulary for the accuracy of a simulation: the Landau-Lifshitz-Gilbert equations of a
    stack as differential equations, their solutions, and the distance between vectors.  Nothing in this
    file mentions an integration scheme. *)
From Verif Require Export S_Run.
Open Scope R_scope.

(** Euclidean distance. *)
Definition Distance (a b : cvec) : R := Norm (Minus a b).

(** [f] has the derivative [d] at time [t]. *)
Definition vderiv (f : R -> cvec) (t : R) (d : cvec) : Prop :=
  derivable_pt_lim (fun s => cx (f s)) t (cx d) /\
  derivable_pt_lim (fun s => cy (f s)) t (cy d) /\
  derivable_pt_lim (fun s => cz (f s)) t (cz d).

(** The magnetisations of all [n] layers at one instant, [u p t] being that of layer [p]. *)
Definition snapshot (u : nat -> R -> cvec) (n : nat) (t : R) : list cvec := map (fun q => u q t) (seq 0 n).

(** [u] with derivative [du] solves the coupled equations of the layers [ls] on [0, T]: at every instant
    the derivative of every layer is its documented right-hand side at the present magnetisations of itself
    and of its two neighbours. *)
Definition solves (ls : list layer) (T : R) (u du : nat -> R -> cvec) : Prop :=
  forall p l t, nth_error ls p = Some l -> 0 <= t <= T ->
    rhs l t (u p t) (below (snapshot u (length ls) t) p) (above (snapshot u (length ls) t) p) (du p t) /\
    vderiv (u p) t (du p t).
(** It starts from the magnetisations the layers have. *)
Definition starts (ls : list layer) (u : nat -> R -> cvec) : Prop :=
  forall p l, nth_error ls p = Some l -> u p 0 = l_mag l.

(** On [0, T] and on vectors no longer than 2 the right-hand side of [l] is bounded by [M] and Lipschitz
    with constant [L] in the time and in the three magnetisations it depends on. *)
Definition regular (T M L : R) (l : layer) : Prop :=
  forall t v b w d, 0 <= t <= T -> Norm v <= 2 -> Norm b <= 2 -> Norm w <= 2 -> rhs l t v b w d ->
    Norm d <= M /\
    forall t' v' b' w' d', 0 <= t' <= T -> Norm v' <= 2 -> Norm b' <= 2 -> Norm w' <= 2 -> rhs l t' v' b' w' d' ->
      Distance d d' <= L * (Rabs (t - t') + Distance v v' + Distance b b' + Distance w w').

(** The constants of the error bound. *)
Definition drift_change (M L : R) : R := L * (1 + 3 * M).
Definition local_error (M L : R) : R := 4 * drift_change M L + M * M.
(** Bound on the distance after the time [t] for the step [dt]. *)
Definition error_bound (M L t dt : R) : R := local_error M L * t * exp (3 * L * t) * dt.

(** A driver without jumps on [0, T]: it always has a value there, and the values are bounded and change at
    most in proportion to the time between them. *)
Definition tame (T : R) (d : sdriver) : Prop :=
  exists B K, forall t, 0 <= t <= T -> exists x, getCurrentScalarValue d t = Ok x /\ Rabs x <= B /\
    forall t' x', 0 <= t' <= T -> getCurrentScalarValue d t' = Ok x' -> Rabs (x - x') <= K * Rabs (t - t').
Definition tame_axial (T : R) (d : adriver) : Prop := tame T (ax0 d) /\ tame T (ax1 d) /\ tame T (ax2 d).
(** All drivers entering the equation of motion of a layer are without jumps; with spin-transfer torque the
    denominator of the Slonczewski efficiency must stay away from zero. *)
Definition tame_layer (T : R) (l : layer) : Prop :=
  tame_axial T (l_external l) /\ tame_axial T (l_Oersted l) /\ tame_axial T (l_Hdmi l) /\ tame_axial T (l_Hreserved l) /\
  tame_axial T (l_IDMIBottom l) /\ tame_axial T (l_IDMITop l) /\
  tame T (l_anisotropy l) /\ tame T (l_IECBottom l) /\ tame T (l_IECTop l) /\ tame T (l_QuadBottom l) /\ tame T (l_QuadTop l) /\
  (l_includeSTT l = true -> tame T (l_current l) /\
     exists e, 0 < e /\ forall v b w, Norm v <= 2 -> Norm b <= 2 -> Norm w <= 2 ->
       e <= Rabs (eta_den (l_alternativeSTT l) (l_slon l) (Dot v (polariser l b w)))) /\
  (l_includeSTT l = false -> l_includeSOT l = true ->
     if l_dynamicSOT l then tame T (l_dlDriver l) /\ tame T (l_flDriver l) else tame T (l_current l)).
