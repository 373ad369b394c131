(** Specification vocabulary for the domain simulation (C91). *)
From Verif Require Export S_Run S_Procedures S_Geom S_Fit M_Domains.
Open Scope R_scope.

(** ** One domain: a macrospin with easy axis k, anisotropy constant K and a thin-film demagnetising field *)
Definition spin_field (k : cvec) (K Ms : R) (H m : cvec) : cvec :=
  Sum [H; Scal (2 * K / Ms * Dot k m) k; Scal (- (Ms / S_Layer.mu0)) (CV 0 0 (cz m))].
Definition spin_rate (k : cvec) (K Ms alpha : R) (H m : cvec) : cvec := LLG_plain alpha m (spin_field k K Ms H m).
(** [m] goes through n Runge-Kutta steps of size dt in the constant field H. *)
Definition relaxes (k : cvec) (K Ms alpha dt : R) (H : cvec) (n : nat) (m : nat -> cvec) : Prop :=
  forall i, (i < n)%nat -> RK4_scheme (fun _ v d => d = spin_rate k K Ms alpha H v) 0 dt (m i) (m (S i)).
(** v is the average of vs. *)
Definition average (vs : list cvec) (v : cvec) : Prop := vs <> [] /\ Scal (INR (length vs)) v = Sum vs.
(** The averages over the last samples for the fields one after the other; each field starts where the previous one ended. *)
Inductive hysteresis (k : cvec) (K Ms alpha dt : R) (n : nat) (last : Z) : cvec -> list cvec -> list cvec -> Prop :=
  | hysteresis_end start : hysteresis k K Ms alpha dt n last start [] []
  | hysteresis_next start H Hs m ys a rest :
      relaxes k K Ms alpha dt H n m -> m 0%nat = start ->
      tail_samples last (map m (seq 1 n)) ys -> average ys a ->
      hysteresis k K Ms alpha dt n last (m n) Hs rest ->
      hysteresis k K Ms alpha dt n last start (H :: Hs) (a :: rest).

(** ** The form *)
Definition easy_axis (s : domain_form) (i : nat) : cvec := point (df_theta s i * PI / 180) (df_phi s i * PI / 180) 1.
Definition total_area (s : domain_form) : R := fold_right (fun i a => df_area s i + a) 0 (seq 0 (df_N s)).
(** The curve of domain i: it starts on its easy axis. *)
Definition domain_curve (s : domain_form) (i : nat) (Hs curve : list cvec) : Prop :=
  (Hs <> [] -> df_Ms s <> 0 /\ df_thickness s <> 0) /\
  exists n, (Hs <> [] -> step_counts (df_time s / 10 ^ 9) (df_step s) (df_step s) n 1) /\
    hysteresis (easy_axis s i) (df_K s i * 1000) (df_Ms s) (df_alpha s) (df_step s) n (df_last s) (easy_axis s i) Hs curve.
(** All curves and their mean weighted by area. *)
Definition domains_spec (s : domain_form) (Hscan : list R) (mixed : list cvec) (curves : list (list cvec)) : Prop :=
  (0 < df_N s)%nat /\ total_area s <> 0 /\
  exists theta phi Hs, get_axis_angles (df_axis s) = Ok (theta, phi) /\
    amplitude_scan (df_Hmin s * 1000) (df_Hmax s * 1000) (df_Hsteps s) theta phi (df_back s) = Ok (Hscan, Hs) /\
    length curves = df_N s /\
    (forall i curve, nth_error curves i = Some curve -> domain_curve s i Hs curve) /\
    length mixed = length Hs /\
    forall f v, nth_error mixed f = Some v ->
      Scal (total_area s) v = Sum (mapi (fun i curve => Scal (df_area s i) (nth f curve Zero)) 0 curves).
