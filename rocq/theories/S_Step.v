(** Specification vocabulary for time stepping: the documented integration schemes, stated over the
    right-hand side relation, neighbours in a stack, and the frame of a step. *)
From Verif Require Export S_Layer M_Junction.
Open Scope R_scope.

(** [l'] is [l] up to magnetisation, remembered values and random-generator positions. *)
Definition static (l l' : layer) : Prop :=
  exists m c rp bf, l' = set_l_mag m (set_l_cache c (set_l_rpos rp (set_l_bfn bf l))).

(** d is the deterministic LLG derivative of layer [l] at time t, magnetisation m, given neighbours. *)
Definition rhs (l : layer) (t : R) (m b top d : cvec) : Prop :=
  exists i, inputs_at l t i /\ l_Ms l <> 0 /\ l_thickness l <> 0 /\
    llg_spec l t m b top (H_eff l i m b top (dipole_total l b top) Zero) d.
(** The same with an externally supplied dipole field. *)
Definition rhs_inj (l : layer) (t : R) (m b top dip d : cvec) : Prop :=
  exists i, inputs_at l t i /\ l_Ms l <> 0 /\ l_thickness l <> 0 /\
    llg_spec l t m b top (H_eff l i m b top dip Zero) d.

(** u is v scaled to length one; the zero vector stays zero. *)
Definition Normalised (v u : cvec) : Prop :=
  (v = Zero /\ u = Zero) \/ (v <> Zero /\ u = Scal (/ Norm v) v).

(** Classical fourth-order Runge-Kutta followed by normalisation, for a derivative relation [F]. *)
Definition RK4_scheme (F : R -> cvec -> cvec -> Prop) (t dt : R) (m m' : cvec) : Prop :=
  exists f1 f2 f3 f4,
    F t m f1 /\
    F (t + dt / 2) (Plus m (Scal (dt / 2) f1)) f2 /\
    F (t + dt / 2) (Plus m (Scal (dt / 2) f2)) f3 /\
    F (t + dt) (Plus m (Scal dt f3)) f4 /\
    Normalised (Plus m (Scal (dt / 6) (Sum [f1; Scal 2 f2; Scal 2 f3; f4]))) m'.

(** Neighbour magnetisations of layer p. *)
Definition below (ms : list cvec) (p : nat) : cvec :=
  match p with O => Zero | S q => nth q ms Zero end.
Definition above (ms : list cvec) (p : nat) : cvec := nth (S p) ms Zero.
Definition mags (ls : list layer) : list cvec := map l_mag ls.

(** The noise a layer is subject to in one step: three Gaussian numbers scaled by the thermal standard
    deviation (if a temperature is set) plus one sample of the coloured source (if its scale is not 0). *)
Definition thermal_sd (l : layer) (t s : R) : Prop :=
  l_cellVolume l <> 0 /\ exists T, getCurrentScalarValue (l_temperature l) t = Ok T /\
  l_Ms l <> 0 /\ 0 <= 2 * l_damping l * kB * T / (l_Ms l * l_cellVolume l * gamma0) /\
  s = sqrt (2 * l_damping l * kB * T / (l_Ms l * l_cellVolume l * gamma0)).
Definition thermal_part (l : layer) (t : R) (v : cvec) : Prop :=
  if l_temperatureSet l then
    exists s, thermal_sd l t s /\
      v = Scal s (CV (l_rng l (l_rpos l)) (l_rng l (l_rpos l + 1)%nat) (l_rng l (l_rpos l + 2)%nat))
  else v = Zero.
(** One sample of the coloured source restricted to its axis. *)
Definition coloured_sample (n : vnoise) (v : cvec) : Prop :=
  let s := vn_raw n (vn_pos n) in
  match vn_axis n with
  | xaxis => v = Scal (vn_scale n) (CV (cx s) 0 0)
  | yaxis => v = Scal (vn_scale n) (CV 0 (cy s) 0)
  | zaxis => v = Scal (vn_scale n) (CV 0 0 (cz s))
  | all_axes => exists u, Normalised s u /\ v = Scal (vn_scale n) u
  | none_axis => v = Zero
  end.
Definition coloured_part (l : layer) (v : cvec) : Prop :=
  (l_nScale l = 0 /\ v = Zero) \/
  (l_nScale l <> 0 /\ exists n, l_bfn l = Some n /\ coloured_sample n v).
Definition noise_spec (l : layer) (t : R) (w : cvec) : Prop :=
  exists a b, thermal_part l t a /\ coloured_part l b /\ w = Plus a b.
(** Generator positions after one noise evaluation. *)
Definition advance_noise (l : layer) : layer :=
  set_l_bfn (if Req_EM_T (l_nScale l) 0 then l_bfn l
             else match l_bfn l with
                  | Some n => Some (VN (vn_axis n) (vn_scale n) (vn_raw n) (S (vn_pos n)))
                  | None => None end)
    (set_l_rpos (if l_temperatureSet l then (l_rpos l + 3)%nat else l_rpos l) l).

(** Stochastic Euler-Heun: drift explicit, diffusion by predictor-corrector. *)
Definition EulerHeun_scheme (l : layer) (t dt : R) (b top w m' : cvec) : Prop :=
  0 <= dt /\ exists f, rhs l t (l_mag l) b top f /\
    let G m := LLG_plain (l_damping l) m w in
    let g := G (l_mag l) in
    let g' := G (Plus (l_mag l) (Scal (sqrt dt) g)) in
    Normalised (Plus (l_mag l) (Plus (Scal dt f) (Scal (sqrt dt / 2) (Plus g g')))) m'.

(** Stochastic Heun: predictor of a layer ... *)
Definition Heun_predictor (l : layer) (t dt : R) (b top w p : cvec) : Prop :=
  0 <= dt /\ exists f, rhs l t (l_mag l) b top f /\
    p = Plus (l_mag l) (Plus (Scal dt f) (Scal (sqrt dt) (LLG_plain (l_damping l) (l_mag l) w))).
(** ... and corrector, with the neighbours' predictors bp, tp. *)
Definition Heun_corrector (l : layer) (t dt : R) (b top w p bp tp m' : cvec) : Prop :=
  exists f f', rhs l t (l_mag l) b top f /\ rhs l (t + dt) p bp tp f' /\
    Normalised (Plus (l_mag l) (Plus (Scal (dt / 2) (Plus f f'))
      (Scal (sqrt dt / 2) (Plus (LLG_plain (l_damping l) (l_mag l) w) (LLG_plain (l_damping l) p w))))) m'.

(** A junction-wide step: only the layers change, each one related to its old state by [Rel]. *)
Definition stepwise (Rel : nat -> layer -> layer -> Prop) (j j' : junction) : Prop :=
  j' = set_j_layers (j_layers j') j /\ length (j_layers j') = length (j_layers j) /\
  forall p l l', nth_error (j_layers j) p = Some l -> nth_error (j_layers j') p = Some l' -> Rel p l l'.

(** The four junction-wide steps in terms of the state before the step only. *)
Definition RK4_multi_rel (ms : list cvec) (t dt : R) (p : nat) (l l' : layer) : Prop :=
  RK4_scheme (fun s m d => rhs l s m (below ms p) (above ms p) d) t dt (l_mag l) (l_mag l') /\
  exists c, l' = set_l_mag (l_mag l') (set_l_cache c l).
(** With one layer both neighbours are the zero vector; further layers (if any) do not move. *)
Definition RK4_single_rel (t dt : R) (p : nat) (l l' : layer) : Prop :=
  match p with
  | O => RK4_scheme (fun s m d => rhs l s m Zero Zero d) t dt (l_mag l) (l_mag l') /\
         exists c, l' = set_l_mag (l_mag l') (set_l_cache c l)
  | S _ => l' = l
  end.
Definition EulerHeun_rel (ms : list cvec) (t dt : R) (p : nat) (l l' : layer) : Prop :=
  exists w c, noise_spec l t w /\ EulerHeun_scheme l t dt (below ms p) (above ms p) w (l_mag l') /\
    l' = set_l_mag (l_mag l') (set_l_cache c (advance_noise l)).
Definition Heun_rel (ms : list cvec) (ws ps : list cvec) (t dt : R) (p : nat) (l l' : layer) : Prop :=
  exists w q c, nth_error ws p = Some w /\ nth_error ps p = Some q /\ noise_spec l t w /\
    Heun_predictor l t dt (below ms p) (above ms p) w q /\
    Heun_corrector l t dt (below ms p) (above ms p) w q (below ps p) (above ps p) (l_mag l') /\
    l' = set_l_mag (l_mag l') (set_l_cache c (advance_noise l)).

(** Advance the layers one by one in an arbitrary order, each with neighbours taken from the snapshot [ms]. *)
Fixpoint replace_nth {A} (p : nat) (x : A) (xs : list A) : list A :=
  match xs, p with
  | [], _ => []
  | _ :: t, O => x :: t
  | h :: t, S q => h :: replace_nth q x t
  end.
Inductive snapshot_exec (t dt : R) (ms : list cvec) : list nat -> list layer -> list layer -> Prop :=
| se_nil : forall ls, snapshot_exec t dt ms [] ls ls
| se_cons : forall p order ls l l' ls',
    nth_error ls p = Some l ->
    rk4_step t dt (below ms p) (above ms p) l = (l', Ok tt) ->
    snapshot_exec t dt ms order (replace_nth p l' ls) ls' ->
    snapshot_exec t dt ms (p :: order) ls ls'.

(** No temperature and no coloured noise. *)
Definition quiet (l : layer) : Prop := l_temperatureSet l = false /\ l_nScale l = 0.
(** Unit magnetisation along the effective field at every time, no current torque. *)
Definition aligned_at_rest (l : layer) (b top : cvec) : Prop :=
  Unit (l_mag l) /\ l_includeSTT l = false /\ l_includeSOT l = false /\ l_Ms l <> 0 /\ l_thickness l <> 0 /\
  forall s, exists i, inputs_at l s i /\
    Cross (l_mag l) (H_eff l i (l_mag l) b top (dipole_total l b top) Zero) = Zero.

(** Magnetisations after a successful step. *)
Definition outcome (m : ST junction unit) (j : junction) (ms : list cvec) : Prop :=
  exists j1, m j = (j1, Ok tt) /\ mags (j_layers j1) = ms.
(** The layers a runner advances: the single-layer runner touches only the first one. *)
Definition stepped (r : runner) (p : nat) : Prop := match r with RunSingle => p = 0%nat | _ => True end.
(** Every layer of the junction is at rest and free of noise. *)
Definition at_rest (j : junction) : Prop :=
  forall p l, nth_error (j_layers j) p = Some l ->
    aligned_at_rest l (below (mags (j_layers j)) p) (above (mags (j_layers j)) p) /\ quiet l.
(** The three standard normal numbers a thermal layer receives in its k-th step from now. *)
Definition gaussians (l : layer) (k : nat) : cvec :=
  CV (l_rng l (l_rpos l + 3 * k)%nat) (l_rng l (l_rpos l + 3 * k + 1)%nat) (l_rng l (l_rpos l + 3 * k + 2)%nat).
