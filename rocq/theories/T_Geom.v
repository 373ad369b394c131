(** C45, C46, C66: spherical coordinates, field scans, Box-Muller pair. *)
From Verif Require Import P_Geom.
From Coq Require Import Psatz.
Open Scope R_scope.
Open Scope st_scope.

(** ** C45 *)
Theorem c45_from_cartesian : forall x y z v, from_cartesian x y z = Ok v <->
  spherical_of (CV x y z) (vo_theta v) (vo_phi v) (vo_mag v).
Proof. exact cartesian_iff. Qed.
Theorem c45_from_cvector : forall c v, from_cvector c = Ok v <-> spherical_of c (vo_theta v) (vo_phi v) (vo_mag v).
Proof. exact cvector_iff. Qed.
Theorem c45_to_cartesian : forall v, get_cartesian v = point (vo_theta v) (vo_phi v) (vo_mag v) /\ to_cvector v = get_cartesian v.
Proof. intros v. split; [apply get_point|reflexivity]. Qed.
(** Every vector has spherical coordinates, exactly one set in normal form. *)
Theorem c45_unique : forall c, exists! v, from_cvector c = Ok v.
Proof.
  intros [x y z]. destruct (cartesian_total x y z) as [v E]. exists v. split; [exact E|]. intros w F. change (from_cartesian x y z = Ok w) in F. congruence.
Qed.
(** Cartesian to spherical and back. *)
Theorem c45_round_trip : forall c v, from_cvector c = Ok v -> to_cvector v = c.
Proof. intros c v H. apply cvector_iff in H. unfold to_cvector. rewrite get_point. symmetry. apply H. Qed.
(** Spherical to cartesian and back: exactly for coordinates in normal form. *)
Theorem c45_round_trip_spherical : forall v, from_cvector (to_cvector v) = Ok v <->
  0 <= vo_mag v /\ 0 <= vo_theta v <= PI /\ - PI < vo_phi v <= PI /\ (vo_mag v = 0 -> vo_theta v = 0) /\ (sin (vo_theta v) = 0 -> vo_phi v = 0).
Proof.
  intros v. rewrite cvector_iff. unfold spherical_of, to_cvector. rewrite get_point. split; [intros (_ & H); exact H|intros H; split; [reflexivity|exact H]].
Qed.
Example c45_round_trip_ex : exists v, from_cvector (CV 1 0 0) = Ok v /\ v = VO (PI / 2) 0 1.
Proof.
  eexists. split; [|reflexivity]. apply cvector_iff. cbn [vo_theta vo_phi vo_mag]. pose proof PI_RGT_0. split; [unfold point; rewrite sin_PI2, cos_PI2, sin_0, cos_0; f_equal; ring|]. repeat split; lra.
Qed.
Example c45_round_trip_spherical_ex : from_cvector (to_cvector (VO (PI / 2) 1 3)) = Ok (VO (PI / 2) 1 3).
Proof. apply c45_round_trip_spherical. cbn. pose proof PI2_1. repeat split; try lra. rewrite sin_PI2. lra. Qed.
(** Operators. *)
Theorem c45_add : forall a b v, vo_add a b = Ok v <->
  spherical_of (Plus (get_cartesian a) (get_cartesian b)) (vo_theta v) (vo_phi v) (vo_mag v).
Proof. exact add_iff. Qed.
Theorem c45_scale : forall a k v, vo_mul a (ByScalar k) = Ok v <->
  spherical_of (Scal k (get_cartesian a)) (vo_theta v) (vo_phi v) (vo_mag v).
Proof. exact scale_iff. Qed.
Theorem c45_componentwise : forall a b v, vo_mul a (ByVector b) = Ok v <->
  spherical_of (CV (cx (get_cartesian a) * cx (get_cartesian b)) (cy (get_cartesian a) * cy (get_cartesian b)) (cz (get_cartesian a) * cz (get_cartesian b)))
    (vo_theta v) (vo_phi v) (vo_mag v).
Proof. exact component_iff. Qed.
Example c45_add_ex : exists v, vo_add (VO 0 0 1) (VO 0 0 2) = Ok v /\ vo_mag v = 3 /\ get_cartesian v = CV 0 0 3.
Proof.
  exists (VO 0 0 3). split; [|split; [reflexivity|unfold get_cartesian, from_spherical; cbn; rewrite sin_0, cos_0; f_equal; ring]]. apply add_iff. cbn [vo_theta vo_phi vo_mag]. pose proof PI_RGT_0.
  split; [unfold get_cartesian, from_spherical, Plus, point; cbn; rewrite sin_0, cos_0; f_equal; ring|]. repeat split; lra.
Qed.
(** Equality compares the three numbers; it is finer than equality of the vectors they denote. *)
Theorem c45_eq : forall a b, vo_eq a b = true <-> a = b.
Proof. exact eq_iff. Qed.
Theorem c45_eq_geometric_refuted : exists a b, get_cartesian a = get_cartesian b /\ vo_eq a b = false.
Proof.
  exists (VO 0 0 1), (VO 0 1 1). split; [unfold get_cartesian, from_spherical; cbn; rewrite sin_0, cos_0; f_equal; ring|].
  destruct (vo_eq (VO 0 0 1) (VO 0 1 1)) eqn:E; [|reflexivity]. apply eq_iff in E. injection E as E. lra.
Qed.
(** FieldScan, in degrees. *)
Theorem c45_vector2angle : forall x y z th ph r, vector2angle x y z = (th, ph, r) <->
  exists t p, degrees th t /\ degrees ph p /\ spherical_of (CV x y z) t p r.
Proof. exact vector2angle_iff. Qed.
Theorem c45_angle2vector : forall th ph t p a, degrees th t -> degrees ph p -> angle2vector th ph a = point t p a.
Proof. exact angle2vector_point. Qed.
Theorem c45_scan_round_trip : forall c th ph r, cvector2angle c = (th, ph, r) -> angle2vector th ph r = c.
Proof.
  intros [x y z] th ph r H. apply vector2angle_iff in H. destruct H as (t & p & A & B & S). rewrite (angle2vector_point _ _ _ _ _ A B). symmetry. apply S.
Qed.
Theorem c45_scan_round_trip_angles : forall th ph r t p, degrees th t -> degrees ph p ->
  cvector2angle (angle2vector th ph r) = (th, ph, r) <->
  0 <= r /\ 0 <= t <= PI /\ - PI < p <= PI /\ (r = 0 -> t = 0) /\ (sin t = 0 -> p = 0).
Proof.
  intros th ph r t p A B. rewrite (angle2vector_point _ _ _ _ _ A B). unfold cvector2angle. rewrite vector2angle_iff. split.
  - intros (t' & p' & A' & B' & S). apply deg_iff in A, B, A', B'. replace t' with t in S by congruence. replace p' with p in S by congruence. apply S.
  - intros H. exists t, p. split; [exact A|]. split; [exact B|]. split; [reflexivity|exact H].
Qed.
Example c45_scan_ex : exists th ph r, cvector2angle (CV 0 2 0) = (th, ph, r) /\ degrees th (PI / 2) /\ degrees ph (PI / 2) /\ r = 2 /\ th = 90.
Proof.
  pose proof PI_RGT_0. exists 90, 90, 2. assert (D : degrees 90 (PI / 2)) by (unfold degrees; lra). split; [|auto]. apply vector2angle_iff. cbn [cx cy cz]. exists (PI / 2), (PI / 2). split; [exact D|]. split; [exact D|].
  split; [unfold point; rewrite sin_PI2, cos_PI2; f_equal; ring|]. repeat split; try lra. rewrite sin_PI2. lra.
Qed.
(** The two conversions agree. *)
Theorem c45_agree : forall c v th ph r, from_cvector c = Ok v -> cvector2angle c = (th, ph, r) ->
  degrees th (vo_theta v) /\ degrees ph (vo_phi v) /\ r = vo_mag v.
Proof.
  intros [x y z] v th ph r H K. apply cvector_iff in H. apply vector2angle_iff in K. destruct K as (t & p & A & B & S). destruct (spherical_unique _ _ _ _ _ _ _ H S) as (-> & -> & ->). auto.
Qed.

(** ** C46 *)
Theorem c46_scan : forall a b n th ph t p hs vs, degrees th t -> degrees ph p -> amplitude_scan a b n th ph false = Ok (hs, vs) <->
  (0 <= n)%Z /\ evenly a b (Z.to_nat n) hs /\ fields_of (fun h => point t p h) hs vs.
Proof. exact scan_iff. Qed.
Theorem c46_scan_back : forall a b n th ph hs vs, amplitude_scan a b n th ph true = Ok (hs, vs) <->
  exists hs' vs', amplitude_scan a b n th ph false = Ok (hs', vs') /\ there_and_back hs' hs /\ there_and_back vs' vs.
Proof. exact scan_back_iff. Qed.
(** The scan with return is a palindrome. *)
Theorem c46_palindrome : forall a b n th ph hs vs, amplitude_scan a b n th ph true = Ok (hs, vs) -> rev hs = hs /\ rev vs = vs.
Proof. intros a b n th ph hs vs H. apply scan_back_iff in H. destruct H as (h & v & _ & A & B). split; eapply palindrome; eassumption. Qed.
(** The magnitude of every field is the absolute value of its amplitude. *)
Theorem c46_magnitude : forall a b n th ph back hs vs i h v, amplitude_scan a b n th ph back = Ok (hs, vs) ->
  nth_error hs i = Some h -> nth_error vs i = Some v -> Norm v = Rabs h.
Proof.
  intros a b n th ph back hs vs i h v H HH HV.
  assert (D : degrees th (deg2rad th) /\ degrees ph (deg2rad ph)) by (split; apply deg_iff; reflexivity). destruct D as [D1 D2].
  assert (Q : vs = map (fun h => point (deg2rad th) (deg2rad ph) h) hs).
  { destruct back.
    - apply scan_back_iff in H. destruct H as (h' & v' & H & A & B). apply (scan_iff _ _ _ _ _ _ _ _ _ D1 D2) in H. destruct H as (_ & _ & F). apply fields_iff in F. apply back_iff in A. apply back_iff in B. subst. rewrite map_app, map_rev, map_removelast. reflexivity.
    - apply (scan_iff _ _ _ _ _ _ _ _ _ D1 D2) in H. destruct H as (_ & _ & F). apply fields_iff in F. exact F. }
  rewrite Q, nth_error_map, HH in HV. injection HV as <-. unfold Norm. assert (E : forall v, Norm2 v = cx v ^ 2 + cy v ^ 2 + cz v ^ 2) by (intros [a1 a2 a3]; unfold Norm2, Dot; cbn [cx cy cz]; ring).
  rewrite E, sq_sum3. apply sqrt_Rsqr_abs.
Qed.
Example c46_scan_ex : exists hs vs, amplitude_scan 0 2 3 90 0 true = Ok (hs, vs) /\ hs = [0; 1; 2; 1; 0] /\ length vs = 5%nat.
Proof.
  assert (E : linspace 0 2 3 = Ok [0; 1; 2]) by (apply linspace_iff; split; [lia|]; change (Z.to_nat 3) with 3%nat; split; [reflexivity|]; split; [intros x H; cbn in H; congruence|]; split; [reflexivity|]; exists 1; intros [|[|[|i]]] x y H K; cbn in *; try discriminate; try (destruct i; discriminate); injection H as <-; injection K as <-; ring).
  unfold amplitude_scan. rewrite E. cbn. do 2 eexists. split; [reflexivity|]. split; reflexivity.
Qed.
(** A single step is the start value; a negative number of steps is refused. *)
Theorem c46_single : forall a b th ph back, exists v, amplitude_scan a b 1 th ph back = Ok ([a], [v]).
Proof. intros. eexists. unfold amplitude_scan, linspace, trig_compute. destruct back; reflexivity. Qed.
Theorem c46_negative : forall a b n th ph back, (n < 0)%Z -> amplitude_scan a b n th ph back = Err (Throw "Number of samples must be non-negative.").
Proof. intros a b n th ph back H. unfold amplitude_scan, linspace. destruct (Z.ltb_spec n 0); [reflexivity|lia]. Qed.
Example c46_negative_ex : amplitude_scan 0 1 (-3) 0 0 true = Err (Throw "Number of samples must be non-negative.").
Proof. apply c46_negative. lia. Qed.
(** Angle scans. *)
Theorem c46_theta_scan : forall a b n amp ph p hs vs, degrees ph p -> theta_scan a b n amp ph = Ok (hs, vs) <->
  (0 <= n)%Z /\ evenly a b (Z.to_nat n) hs /\ fields_of (fun h => point (deg2rad h) p amp) hs vs.
Proof. exact theta_scan_iff. Qed.
Theorem c46_phi_scan : forall a b n amp th t hs vs, degrees th t -> phi_scan a b n amp th = Ok (hs, vs) <->
  (0 <= n)%Z /\ evenly a b (Z.to_nat n) hs /\ fields_of (fun h => point t (deg2rad h) amp) hs vs.
Proof. exact phi_scan_iff. Qed.
Theorem c46_degrees : forall x t, degrees x t <-> deg2rad x = t.
Proof. exact deg_iff. Qed.
Example c46_angle_ex : exists vs ws, theta_scan 0 90 2 5 0 = Ok ([0; 90], vs) /\ phi_scan 0 90 2 5 90 = Ok ([0; 90], ws) /\ length vs = 2%nat /\ length ws = 2%nat.
Proof.
  assert (E : linspace 0 90 2 = Ok [0; 90]) by (apply linspace_iff; split; [lia|]; change (Z.to_nat 2) with 2%nat; split; [reflexivity|]; split; [intros x H; cbn in H; congruence|]; split; [reflexivity|]; exists 90; intros [|[|i]] x y H K; cbn in *; try discriminate; try (destruct i; discriminate); injection H as <-; injection K as <-; ring). unfold theta_scan, phi_scan. rewrite E. do 2 eexists. repeat split; reflexivity.
Qed.

(** ** C66 *)
Theorem c66_pair : forall mean std u1 u2 z0 z1, box_muller_random mean std u1 u2 = Ok (z0, z1) <->
  0 < u1 <= 1 /\ exists s, 0 <= s /\ s * s = -2 * ln u1 /\ z0 - mean = std * s * cos (2 * PI * u2) /\ z1 - mean = std * s * sin (2 * PI * u2).
Proof. exact muller_iff. Qed.
Theorem c66_radius : forall mean std u1 u2 z0 z1, box_muller_random mean std u1 u2 = Ok (z0, z1) ->
  (z0 - mean) * (z0 - mean) + (z1 - mean) * (z1 - mean) = -2 * std * std * ln u1.
Proof.
  intros mean std u1 u2 z0 z1 H. apply muller_iff in H. destruct H as (_ & s & _ & S & -> & ->). pose proof (sin2_cos2 (2 * PI * u2)) as A. unfold Rsqr in A.
  replace (-2 * std * std * ln u1) with (std * std * (s * s) * (sin (2 * PI * u2) * sin (2 * PI * u2) + cos (2 * PI * u2) * cos (2 * PI * u2))) by (rewrite A, S; ring). ring.
Qed.
(** The draw 0, which the uniform generator can return, raises. *)
Theorem c66_zero_draw : forall mean std u2, box_muller_random mean std 0 u2 = Err (Throw "math domain error").
Proof. intros. unfold box_muller_random, py_log. destruct (Rlt_dec 0 0); [lra|reflexivity]. Qed.
Example c66_pair_ex : box_muller_random 3 2 1 0 = Ok (3, 3).
Proof. apply muller_iff. split; [lra|]. exists 0. rewrite ln_1. repeat split; lra. Qed.

Print Assumptions c45_from_cartesian.
Print Assumptions c45_from_cvector.
Print Assumptions c45_to_cartesian.
Print Assumptions c45_unique.
Print Assumptions c45_round_trip.
Print Assumptions c45_round_trip_spherical.
Print Assumptions c45_add.
Print Assumptions c45_scale.
Print Assumptions c45_componentwise.
Print Assumptions c45_eq.
Print Assumptions c45_eq_geometric_refuted.
Print Assumptions c45_vector2angle.
Print Assumptions c45_angle2vector.
Print Assumptions c45_scan_round_trip.
Print Assumptions c45_scan_round_trip_angles.
Print Assumptions c45_agree.
Print Assumptions c46_scan.
Print Assumptions c46_scan_back.
Print Assumptions c46_palindrome.
Print Assumptions c46_magnitude.
Print Assumptions c46_single.
Print Assumptions c46_negative.
Print Assumptions c46_theta_scan.
Print Assumptions c46_phi_scan.
Print Assumptions c46_degrees.
Print Assumptions c66_pair.
Print Assumptions c66_radius.
Print Assumptions c66_zero_draw.
