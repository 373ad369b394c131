(** Specification vocabulary for dipole fields, interacting groups and reservoirs. *)
From Verif Require Export S_Stack M_Reservoir.
Open Scope R_scope.

(** ** Dipole fields *)
(** Field per unit moment at distance [r] from a dipole along [m]. *)
Definition DipoleField (r m : cvec) : cvec :=
  Scal (/ (4 * PI)) (Minus (Scal (3 * Dot m r / Norm r ^ 5) r) (Scal (/ Norm r ^ 3) m)).
(** [t] is the tensor of that linear map. *)
Definition dipole_map (r : cvec) (t : tensor) : Prop := r <> Zero /\ forall m, MatVec t m = DipoleField r m.
Definition closeness : R := 1 / 10 ^ 10.
Definition moment (l : layer) : R := l_Ms l / MAGNETIC_PERMEABILITY * (l_thickness l * l_cellSurface l).
Definition ScaleTensor (k : R) (t : tensor) : tensor := Ten (Scal k (row0 t)) (Scal k (row1 t)) (Scal k (row2 t)).

(** ** Groups *)
(** A field that is constant in time. *)
Definition still (v : cvec) : adriver :=
  let d x := SD constant x 0 (-1) 0 (-1) (-1) (-1) (-1) (-1) (-1) in AX (d (cx v)) (d (cy v)) (d (cz v)).
(** Sum of the fields of the other elements on element [i]; [at_ q] is element q as it is looked at. *)
Definition field_of_others (f : interactionFunction) (cs : list cvec) (top : string) (n : nat)
    (at_ : nat -> option junction) (i : nat) (H : cvec) : Prop :=
  exists hs, length hs = n /\ H = Sum hs /\
    forall q h, nth_error hs q = Some h ->
      if Nat.eq_dec q i then h = Zero
      else exists ri rq ji jq li lq, nth_error cs i = Some ri /\ nth_error cs q = Some rq /\
        at_ i = Some ji /\ at_ q = Some jq /\ first_with top ji li /\ first_with top jq lq /\ f ri rq li lq = Ok h.
(** The interaction does not read the reserved field it is about to replace. *)
Definition indifferent (f : interactionFunction) : Prop :=
  forall r1 r2 l1 l1' l2 l2', same_except [F_Hreserved] l1 l1' -> same_except [F_Hreserved] l2 l2' ->
    f r1 r2 l1' l2' = f r1 r2 l1 l2.
(** The reserved field of the named layers of [j] becomes [H]. *)
Definition receives (top : string) (H : cvec) (j j1 : junction) : Prop :=
  set_everywhere top (SReserved (still H)) j j1 /\ exists p, addressed top (SReserved (still H)) (j_layers j) p.
(** One step; [view js js1 i] is what element i sees of the others. *)
Definition group_step_seeing (view : list junction -> list junction -> nat -> nat -> option junction)
    (f : interactionFunction) (cs : list cvec) (top : string) (r : runner) (t dt : R) (js js' : list junction) : Prop :=
  length js' = length js /\ exists js1, length js1 = length js /\
    forall i j j1 j', nth_error js i = Some j -> nth_error js1 i = Some j1 -> nth_error js' i = Some j' ->
      (exists H, field_of_others f cs top (length js) (view js js1 i) i H /\ receives top H j j1) /\
      run_runner r t dt j1 = (j', Ok tt).
(** All elements are looked at before the step ... *)
Definition group_step := group_step_seeing (fun js js1 i q => nth_error js q).
(** ... while the code has replaced the reserved fields of the elements before i. *)
Definition group_step_sequential := group_step_seeing (fun js js1 i q => nth_error (if Nat.ltb q i then js1 else js) q).
(** Effect of a run: [sg k] are the elements before step k, [mid k] the advanced ones before logging. *)
Definition group_effect (step : list cvec -> string -> runner -> R -> R -> list junction -> list junction -> Prop)
    (g : group) (r : runner) (dt : R) (N w : nat) (sg mid : nat -> list junction) : Prop :=
  sg 0%nat = g_js g /\ (N = 0%nat \/ (w > 0)%nat) /\
  forall k, (k < N)%nat -> step (g_coords g) (g_top g) r (INR k * dt) dt (sg k) (mid k) /\
    length (sg (S k)) = length (mid k) /\
    forall i j j', nth_error (mid k) i = Some j -> nth_error (sg (S k)) i = Some j' ->
      if Nat.eqb (k mod w) 0
      then exists row, log_row false j (INR k * dt) row /\ j' = set_j_log (j_log j') (S (j_logLength j)) j /\
             forall key, col key (j_log j') = (col key (j_log j) ++ values key row)%list
      else j' = j.
Definition group_selects (N : nat) (g g0 : group) (r : runner) : Prop :=
  g0 = set_g_js (map (fun j => set_j_layers (map prepared (j_layers j)) j) (g_js g)) g /\
  (forall j l, In j (g_js g) -> In l (j_layers j) -> preparable N l) /\
  exists used, (forall j, In j (g_js g) -> mode_table (exists l, In l (j_layers j) /\ noisy l) RK4 used) /\
    forall jl, last (map Some (g_js g)) None = Some jl -> r = runner_table (layerNo jl) used.

(** ** Reservoirs *)
Definition entry {A} (m : list (list A)) (p q : nat) : option A :=
  match nth_error m p with Some row => nth_error row q | None => None end.
(** Row-major cell number e. *)
Definition cell {A} (m : list (list A)) (cols e : nat) : option A := entry m (e / cols) (e mod cols).
(** The other cells of a reservoir of n cells, in order. *)
Definition partner (e i : nat) : nat := if Nat.ltb i e then i else S i.
(** Tensor table: n-1 tensors per cell, the i-th one to the i-th other cell. *)
Definition tensor_table (coords : list (list cvec)) (cols n : nat) (ts : list (list tensor)) : Prop :=
  length ts = n /\
  forall e row, nth_error ts e = Some row -> length row = (n - 1)%nat /\
    forall i t, nth_error row i = Some t -> exists a b, cell coords cols e = Some a /\
      cell coords cols (partner e i) = Some b /\ dipole_map (Minus b a) t.
(** Per-cell data in row-major order. *)
Definition per_cell {A} (ls : list (list layer)) (cols n : nat) (f : layer -> A) (xs : list A) : Prop :=
  length xs = n /\ forall e x, nth_error xs e = Some x -> exists l, cell ls cols e = Some l /\ x = f l.
(** A reservoir as the constructor and all later calls leave it. *)
Definition wired (r : reservoir) : Prop :=
  (2 <= noElements r)%nat /\ tensor_table (r_coords r) (r_cols r) (noElements r) (r_tensors r) /\
  length (r_Ms r) = noElements r /\ length (r_vol r) = noElements r /\
  forall e, (e < noElements r)%nat -> exists l, cell (r_layers r) (r_cols r) e = Some l.
(** The field the code applies to cell e: the i-th tensor with the i-th cell, times the cell's own volume. *)
Definition applied_field (r : reservoir) (ms : list cvec) (e : nat) (H : cvec) : Prop :=
  exists v hs, nth_error (r_vol r) e = Some v /\ length hs = (noElements r - 1)%nat /\ H = Scal v (Sum hs) /\
    forall i h, nth_error hs i = Some h -> exists a b m Ms, cell (r_coords r) (r_cols r) e = Some a /\
      cell (r_coords r) (r_cols r) (partner e i) = Some b /\ nth_error ms i = Some m /\ nth_error (r_Ms r) i = Some Ms /\
      h = Scal (Ms / MAGNETIC_PERMEABILITY) (DipoleField (Minus b a) m).
(** The dipole field of the other cells. *)
Definition intended_field (r : reservoir) (ms : list cvec) (e : nat) (H : cvec) : Prop :=
  exists hs, length hs = noElements r /\ H = Sum hs /\
    forall q h, nth_error hs q = Some h -> if Nat.eq_dec q e then h = Zero else
      exists a b m Ms v, cell (r_coords r) (r_cols r) e = Some a /\ cell (r_coords r) (r_cols r) q = Some b /\
        nth_error ms q = Some m /\ nth_error (r_Ms r) q = Some Ms /\ nth_error (r_vol r) q = Some v /\
        h = Scal (Ms / MAGNETIC_PERMEABILITY * v) (DipoleField (Minus b a) m).
(** One step of a reservoir. *)
Definition same_shape {A} (m m' : list (list A)) : Prop :=
  length m' = length m /\ forall p row row', nth_error m p = Some row -> nth_error m' p = Some row' -> length row' = length row.
Definition reservoir_step (t dt : R) (r r' : reservoir) : Prop :=
  r' = set_r_layers (r_layers r') (set_r_frozen (r_frozen r') r) /\
  per_cell (r_layers r) (r_cols r) (noElements r) l_mag (r_frozen r') /\
  same_shape (r_layers r) (r_layers r') /\
  (forall e l l', (e < noElements r)%nat -> cell (r_layers r) (r_cols r) e = Some l -> cell (r_layers r') (r_cols r) e = Some l' ->
     exists H, applied_field r (r_frozen r') e H /\ rk4_stepDipoleInjection t dt Zero Zero H l = (l', Ok tt)) /\
  forall p q, (r_rows r <= p \/ r_cols r <= q)%nat -> entry (r_layers r') p q = entry (r_layers r) p q.
(** A row of the reservoir's log. *)
Definition cell_name (cols e : nat) (axis : string) : string :=
  ("m_" ++ to_string (e / cols) ++ "_" ++ to_string (e mod cols) ++ axis)%string.
Definition cell_row (cols e : nat) (m : cvec) : list (string * R) :=
  [(cell_name cols e "_x", cx m); (cell_name cols e "_y", cy m); (cell_name cols e "_z", cz m)]%string.
Definition reservoir_row (cols : nat) (t : R) (ms : list cvec) : list (string * R) :=
  ("time"%string, t) :: concat (mapi (cell_row cols) 0 ms).
Definition reservoir_keys (cols n : nat) : list string :=
  "time"%string :: flat_map (fun e => [cell_name cols e "_x"; cell_name cols e "_y"; cell_name cols e "_z"]%string) (seq 0 n).
(** Number of steps: truncation, none for a negative quotient. *)
Definition signed_count (x : R) (n : nat) : Prop :=
  -2147483649 < x < 2147483648 /\ ((0 <= x /\ IntegerPart x n) \/ (x < 0 /\ n = 0%nat)).
(** Effect of a run. *)
Definition reservoir_effect (r : reservoir) (dt : R) (N : nat) (sg : nat -> reservoir) (ms : nat -> list cvec) : Prop :=
  sg 0%nat = r /\ forall k, (k < N)%nat ->
    exists mid, reservoir_step (INR k * dt) dt (sg k) mid /\
      per_cell (r_layers mid) (r_cols r) (noElements r) l_mag (ms k) /\
      sg (S k) = set_r_log (r_log (sg (S k))) mid /\
      forall key, col key (r_log (sg (S k))) = (col key (r_log mid) ++ values key (reservoir_row (r_cols r) (INR k * dt) (ms k)))%list.
(** The layer of one cell changes by P, nothing else. *)
Definition cell_changed (i : nat) (r r' : reservoir) (P : layer -> layer -> Prop) : Prop :=
  r' = set_r_layers (r_layers r') r /\ same_shape (r_layers r) (r_layers r') /\
  (exists l l', cell (r_layers r) (r_cols r) i = Some l /\ cell (r_layers r') (r_cols r) i = Some l' /\ P l l') /\
  forall p q, (p <> i / r_cols r \/ q <> i mod r_cols r)%nat -> entry (r_layers r') p q = entry (r_layers r) p q.
(** The same group with its elements in another order. *)
Definition rearranged (f : nat -> nat) (g g2 : group) : Prop :=
  (forall a b, f a = f b -> a = b) /\ g_top g2 = g_top g /\ g_fn g2 = g_fn g /\
  length (g_js g2) = length (g_js g) /\
  (forall q, nth_error (g_coords g2) q = nth_error (g_coords g) (f q)) /\
  (forall q, nth_error (g_js g2) q = nth_error (g_js g) (f q)).
(** Two reservoirs on the same grid that agree on every cell but the last. *)
Definition alike_but_last (r r2 : reservoir) : Prop :=
  r_coords r2 = r_coords r /\ r_rows r2 = r_rows r /\ r_cols r2 = r_cols r /\
  forall e, (e < noElements r - 1)%nat -> cell (r_layers r2) (r_cols r) e = cell (r_layers r) (r_cols r) e /\
    nth_error (r_Ms r2) e = nth_error (r_Ms r) e /\ nth_error (r_vol r2) e = nth_error (r_vol r) e.
