(** Proofs about the Python vector helpers. *)
From Verif Require Export P_Math P_Vec S_Geom.
From Coq Require Import Psatz.
Open Scope R_scope.
Open Scope st_scope.

Lemma sq_sum3 theta phi r : cx (point theta phi r) ^ 2 + cy (point theta phi r) ^ 2 + cz (point theta phi r) ^ 2 = r * r.
Proof. cbn [point cx cy cz]. pose proof (sin2_cos2 theta) as A. pose proof (sin2_cos2 phi) as B. unfold Rsqr in A, B.
  replace ((r * (sin theta * cos phi)) ^ 2 + (r * (sin theta * sin phi)) ^ 2 + (r * cos theta) ^ 2) with (r * r * (sin theta * sin theta * (sin phi * sin phi + cos phi * cos phi) + cos theta * cos theta)) by ring.
  rewrite B, Rmult_1_r, A. ring. Qed.
Lemma sphere_radius v theta phi r : spherical_of v theta phi r -> r = sqrt (cx v ^ 2 + cy v ^ 2 + cz v ^ 2).
Proof. intros (-> & H & _). rewrite sq_sum3, sqrt_square by exact H. reflexivity. Qed.
Lemma sin_pos theta : 0 <= theta <= PI -> 0 <= sin theta.
Proof. intros [A B]. apply sin_ge_0; assumption. Qed.
Lemma spherical_unique v t p r t' p' r' : spherical_of v t p r -> spherical_of v t' p' r' -> t = t' /\ p = p' /\ r = r'.
Proof.
  intros H H'. assert (ER : r = r') by (rewrite (sphere_radius _ _ _ _ H), (sphere_radius _ _ _ _ H'); reflexivity). subst r'.
  destruct H as (E & R0 & T & P & Z & S), H' as (E' & _ & T' & P' & Z' & S'). pose proof PI_RGT_0.
  destruct (Req_dec r 0) as [R1|R1]; [rewrite Z, Z' in * by exact R1; rewrite S, S' by exact sin_0; auto|].
  assert (RP : 0 < r) by lra. rewrite E in E'. unfold point in E'. injection E' as EX EY EZ.
  assert (C : cos t = cos t') by (apply Rmult_eq_reg_l with r; assumption).
  assert (SS : sin t = sin t').
  { pose proof (sin_pos t T). pose proof (sin_pos t' T'). pose proof (sin2_cos2 t) as A. pose proof (sin2_cos2 t') as B. unfold Rsqr in A, B. rewrite C in A. nra. }
  assert (ET : t = t') by (apply angle_unique; [lra|lra|exact C|exact SS]). subst t'. split; [reflexivity|]. split; [|reflexivity].
  destruct (Req_dec (sin t) 0) as [S0|S0]; [rewrite S, S' by exact S0; reflexivity|]. pose proof (sin_pos t T).
  apply (polar_unique (sin t) (sin t)); [lra|lra|exact P|exact P'| |]; apply Rmult_eq_reg_l with r; assumption.
Qed.
Lemma sum2_zero x y : x ^ 2 + y ^ 2 = 0 -> x = 0 /\ y = 0.
Proof. intros H. split; nra. Qed.
Lemma sum3_zero x y z : sqrt (x ^ 2 + y ^ 2 + z ^ 2) = 0 -> x = 0 /\ y = 0 /\ z = 0.
Proof. intros H. apply sqrt_eq_0 in H; [|nra]. repeat split; nra. Qed.
Lemma principal_radius x y p : principal_angle x y p -> x = sqrt (x ^ 2 + y ^ 2) * cos p /\ y = sqrt (x ^ 2 + y ^ 2) * sin p /\ - PI < p <= PI /\ (x = 0 /\ y = 0 -> p = 0).
Proof.
  pose proof PI_RGT_0. intros [(-> & -> & ->)|(r & Hr & EX & EY & HP)].
  - replace (0 ^ 2 + 0 ^ 2) with 0 by ring. rewrite sqrt_0. repeat split; try lra.
  - assert (E : sqrt (x ^ 2 + y ^ 2) = r). { rewrite EX, EY. replace ((r * cos p) ^ 2 + (r * sin p) ^ 2) with (r * r * (Rsqr (sin p) + Rsqr (cos p))) by (unfold Rsqr; ring). rewrite sin2_cos2, Rmult_1_r. apply sqrt_square. lra. }
    rewrite E. split; [exact EX|]. split; [exact EY|]. split; [exact HP|]. intros [X Y]. exfalso. rewrite X in EX. rewrite Y in EY. pose proof (sin2_cos2 p) as A. unfold Rsqr in A.
    assert (cos p = 0) by nra. assert (sin p = 0) by nra. nra.
Qed.
(** The angles of a vector from its components. *)
Lemma spherical_atan x y z : spherical_of (CV x y z) (atan2 (sqrt (x ^ 2 + y ^ 2)) z) (atan2 y x) (sqrt (x ^ 2 + y ^ 2 + z ^ 2)).
Proof.
  set (rho := sqrt (x ^ 2 + y ^ 2)). assert (R2 : rho ^ 2 = x ^ 2 + y ^ 2) by (unfold rho; rewrite <- Rsqr_pow2; apply Rsqr_sqrt; nra). assert (R0 : 0 <= rho) by apply sqrt_pos.
  destruct (principal_radius z rho _ (atan2_angle rho z)) as (Z1 & Z2 & Z3 & Z4). destruct (principal_radius x y _ (atan2_angle y x)) as (P1 & P2 & P3 & P4). fold rho in P1, P2.
  replace (z ^ 2 + rho ^ 2) with (x ^ 2 + y ^ 2 + z ^ 2) in * by (rewrite R2; ring). set (r := sqrt (x ^ 2 + y ^ 2 + z ^ 2)) in *. assert (Rr : 0 <= r) by apply sqrt_pos.
  set (t := atan2 rho z) in *. set (p := atan2 y x) in *.
  assert (HR : r = 0 -> t = 0). { intros E. apply Z4. unfold r in E. apply sum3_zero in E. destruct E as (X & Y & Z). split; [exact Z|]. unfold rho. rewrite X, Y. replace (0 ^ 2 + 0 ^ 2) with 0 by ring. apply sqrt_0. }
  split; [|split; [exact Rr|split; [|split; [exact P3|split; [exact HR|]]]]].
  - unfold point. f_equal; [rewrite <- Rmult_assoc, <- Z2; exact P1|rewrite <- Rmult_assoc, <- Z2; exact P2|exact Z1].
  - split; [|lra]. destruct (Rle_dec 0 t) as [H|H]; [exact H|]. exfalso. assert (sin t < 0) by (apply sin_lt_0_var; lra). destruct (Req_dec r 0) as [E|E]; [rewrite HR in H by exact E; lra|]. nra.
  - intros S. apply P4. rewrite S, Rmult_0_r in Z2. apply sum2_zero. rewrite <- R2, Z2. ring.
Qed.
Lemma acos_iff q t : py_acos q = Ok t <-> 0 <= t <= PI /\ q = cos t.
Proof.
  unfold py_acos. split.
  - destruct (Rle_dec (-1) q) as [A|A]; [|discriminate]. destruct (Rle_dec q 1) as [B|B]; [|discriminate]. intros E. injection E as <-. split; [apply acos_bound|]. rewrite cos_acos; [reflexivity|split; assumption].
  - intros [HT ->]. pose proof (COS_bound t). destruct (Rle_dec (-1) (cos t)); [|lra]. destruct (Rle_dec (cos t) 1); [|lra]. f_equal. apply acos_cos. exact HT.
Qed.
Lemma cartesian_ok x y z t p r : spherical_of (CV x y z) t p r -> from_cartesian x y z = Ok (VO t p r).
Proof.
  intros H. pose proof (sphere_radius _ _ _ _ H) as ER. cbn [cx cy cz] in ER. unfold from_cartesian. rewrite <- ER. pose proof (spherical_unique _ _ _ _ _ _ _ H (spherical_atan x y z)) as (_ & EP & _).
  destruct H as (E & R0 & T & P & Z & S). destruct (Req_EM_T r 0) as [R1|R1]; [rewrite S by (rewrite Z by exact R1; exact sin_0); rewrite Z, R1 by exact R1; reflexivity|].
  unfold fdiv. destruct (Req_EM_T r 0) as [X|_]; [contradiction|]. cbn [rbind]. unfold point in E. injection E as _ _ EZ.
  rewrite (proj2 (acos_iff (z / r) t)) by (split; [exact T|rewrite EZ; field; exact R1]). cbn [rbind]. rewrite EP. reflexivity.
Qed.
Lemma cartesian_iff x y z v : from_cartesian x y z = Ok v <-> spherical_of (CV x y z) (vo_theta v) (vo_phi v) (vo_mag v).
Proof.
  destruct v as [t p r]. cbn [vo_theta vo_phi vo_mag]. split; [|apply cartesian_ok]. intros H. pose proof (spherical_atan x y z) as S. rewrite (cartesian_ok _ _ _ _ _ _ S) in H. injection H as <- <- <-. exact S.
Qed.
Lemma cartesian_total x y z : exists v, from_cartesian x y z = Ok v.
Proof. eexists. apply cartesian_ok, spherical_atan. Qed.
Lemma cvector_same c : from_cvector c = from_cartesian (cx c) (cy c) (cz c).
Proof. reflexivity. Qed.
Lemma cvector_iff c v : from_cvector c = Ok v <-> spherical_of c (vo_theta v) (vo_phi v) (vo_mag v).
Proof. rewrite cvector_same, cartesian_iff. destruct c. reflexivity. Qed.
Lemma get_point v : get_cartesian v = point (vo_theta v) (vo_phi v) (vo_mag v).
Proof. unfold get_cartesian, from_spherical, point. f_equal; ring. Qed.
Lemma add_iff a b v : vo_add a b = Ok v <-> spherical_of (Plus (get_cartesian a) (get_cartesian b)) (vo_theta v) (vo_phi v) (vo_mag v).
Proof. unfold vo_add, to_cvector. rewrite cvector_iff, vadd_Plus. reflexivity. Qed.
Lemma scale_iff a k v : vo_mul a (ByScalar k) = Ok v <-> spherical_of (Scal k (get_cartesian a)) (vo_theta v) (vo_phi v) (vo_mag v).
Proof. unfold vo_mul, to_cvector. rewrite cvector_iff, vscale_Scal. reflexivity. Qed.
Lemma component_iff a b v : vo_mul a (ByVector b) = Ok v <->
  spherical_of (CV (cx (get_cartesian a) * cx (get_cartesian b)) (cy (get_cartesian a) * cy (get_cartesian b)) (cz (get_cartesian a) * cz (get_cartesian b))) (vo_theta v) (vo_phi v) (vo_mag v).
Proof. apply cartesian_iff. Qed.
Lemma eq_iff a b : vo_eq a b = true <-> a = b.
Proof.
  destruct a as [t p r], b as [t' p' r']. unfold vo_eq. cbn. split.
  - destruct (Req_EM_T t t') as [->|]; [|discriminate]. destruct (Req_EM_T p p') as [->|]; [|discriminate]. destruct (Req_EM_T r r') as [->|]; [|discriminate]. reflexivity.
  - intros E. injection E as -> -> ->. destruct (Req_EM_T t' t'); [|congruence]. destruct (Req_EM_T p' p'); [|congruence]. destruct (Req_EM_T r' r'); congruence.
Qed.
(** ** Degrees *)
Lemma deg_iff x t : degrees x t <-> deg2rad x = t.
Proof. pose proof PI_RGT_0. unfold degrees, deg2rad. split; intros E; [apply Rmult_eq_reg_l with 180; [|lra]; rewrite <- E; field|rewrite <- E; field]. Qed.
Lemma rad_deg t : degrees (rad2deg t) t.
Proof. pose proof PI_RGT_0. unfold degrees, rad2deg. field. lra. Qed.
Lemma degrees_inj x y t : degrees x t -> degrees y t -> x = y.
Proof. pose proof PI_RGT_0. unfold degrees. intros A B. apply Rmult_eq_reg_r with PI; lra. Qed.
Lemma angle2vector_point th ph t p a : degrees th t -> degrees ph p -> angle2vector th ph a = point t p a.
Proof. intros A B. apply deg_iff in A. apply deg_iff in B. unfold angle2vector, trig_compute. rewrite A, B. unfold point. f_equal; ring. Qed.
Lemma vector2angle_iff x y z th ph r : vector2angle x y z = (th, ph, r) <-> exists t p, degrees th t /\ degrees ph p /\ spherical_of (CV x y z) t p r.
Proof.
  unfold vector2angle. pose proof (spherical_atan x y z) as S. split.
  - intros E. injection E as <- <- <-. do 2 eexists. split; [apply rad_deg|]. split; [apply rad_deg|]. exact S.
  - intros (t & p & A & B & H). destruct (spherical_unique _ _ _ _ _ _ _ H S) as (-> & -> & ->). f_equal. f_equal; [apply (degrees_inj _ _ _ (rad_deg _) A)|apply (degrees_inj _ _ _ (rad_deg _) B)].
Qed.
(** ** Scans *)
Lemma linspace_ok a b n : (0 <= n)%Z -> exists xs, linspace a b n = Ok xs /\ evenly a b (Z.to_nat n) xs.
Proof.
  intros Hn. unfold linspace. destruct (Z.ltb_spec n 0) as [X|_]; [lia|]. set (m := Z.to_nat n). eexists. split; [reflexivity|]. set (f := fun i => if Nat.leb m 1 then a else a + INR i * ((b - a) / INR (m - 1))).
  assert (N : forall i, (i < m)%nat -> nth_error (map f (seq 0 m)) i = Some (f i)).
  { intros i Hi. rewrite nth_error_map. rewrite (nth_error_nth' (seq 0 m) 0%nat) by (rewrite seq_length; exact Hi). rewrite seq_nth by exact Hi. reflexivity. }
  assert (B : forall i x, nth_error (map f (seq 0 m)) i = Some x -> (i < m)%nat /\ x = f i).
  { intros i x E. assert (Hi : (i < m)%nat) by (rewrite <- (seq_length m 0), <- (map_length f); apply nth_error_Some; congruence). split; [exact Hi|]. rewrite (N i Hi) in E. congruence. }
  split; [rewrite map_length, seq_length; reflexivity|]. split; [|split].
  - intros x E. apply B in E. destruct E as [_ ->]. unfold f. destruct (Nat.leb m 1); [reflexivity|]. cbn [INR]. ring.
  - intros H2. rewrite N by lia. unfold f. destruct (Nat.leb_spec m 1); [lia|]. f_equal. field. apply not_0_INR. lia.
  - exists ((b - a) / INR (m - 1)). intros i x y E F. apply B in E. apply B in F. destruct E as [E1 ->], F as [F1 ->]. unfold f. destruct (Nat.leb_spec m 1); [lia|]. rewrite S_INR. ring.
Qed.
Lemma evenly_value a b n xs i x : evenly a b n xs -> nth_error xs i = Some x -> x = a + INR i * ((b - a) / INR (n - 1)) \/ n = 1%nat /\ x = a.
Proof.
  intros (L & H0 & H1 & step & HS). assert (V : forall i x, nth_error xs i = Some x -> x = a + INR i * step).
  { clear i x. induction i as [|i IH]; intros x E; [cbn [INR]; rewrite (H0 x E); ring|]. destruct (nth_error xs i) as [y|] eqn:F; [|apply nth_error_None in F; assert (S i < length xs)%nat by (apply nth_error_Some; congruence); lia].
    rewrite (HS i y x F E), (IH y eq_refl), S_INR. ring. }
  intros E. assert (Hi : (i < n)%nat) by (rewrite <- L; apply nth_error_Some; congruence). destruct (Nat.eq_dec n 1) as [D|D].
  - right. split; [exact D|]. rewrite (V i x E). replace i with 0%nat by lia. cbn [INR]. ring.
  - left. assert (b = a + INR (n - 1) * step) by (apply V, H1; lia). rewrite (V i x E). assert (INR (n - 1) <> 0) by (apply not_0_INR; lia). f_equal. f_equal. rewrite H. field. assumption.
Qed.
Lemma evenly_det a b n xs ys : evenly a b n xs -> evenly a b n ys -> xs = ys.
Proof.
  intros A B. pose proof A as (LA & _). pose proof B as (LB & _). assert (K : forall i, nth_error xs i = nth_error ys i).
  { intros i. destruct (nth_error xs i) as [x|] eqn:E; [|symmetry; apply nth_error_None; apply nth_error_None in E; lia]. destruct (nth_error ys i) as [y|] eqn:F; [|apply nth_error_None in F; assert (i < length xs)%nat by (apply nth_error_Some; congruence); lia].
    f_equal. assert (Hi : (i < n)%nat) by (rewrite <- LA; apply nth_error_Some; congruence). destruct (Nat.eq_dec n 1) as [->|D].
    - replace i with 0%nat in * by lia. destruct A as (_ & A & _), B as (_ & B & _). rewrite (A x E), (B y F). reflexivity.
    - destruct (evenly_value _ _ _ _ _ _ A E) as [-> |[X _]]; [|lia]. destruct (evenly_value _ _ _ _ _ _ B F) as [-> |[X _]]; [reflexivity|lia]. }
  clear -K. revert ys K. induction xs as [|x xs IH]; intros [|y ys] K; [reflexivity|specialize (K 0%nat); discriminate|specialize (K 0%nat); discriminate|]. pose proof (K 0%nat) as E. cbn in E. injection E as <-. f_equal. apply IH. intros i. exact (K (S i)).
Qed.
Lemma linspace_iff a b n xs : linspace a b n = Ok xs <-> (0 <= n)%Z /\ evenly a b (Z.to_nat n) xs.
Proof.
  split.
  - intros H. assert (Hn : (0 <= n)%Z) by (unfold linspace in H; destruct (Z.ltb_spec n 0); [discriminate|lia]). split; [exact Hn|]. destruct (linspace_ok a b n Hn) as (ys & E & EV). rewrite E in H. injection H as <-. exact EV.
  - intros [Hn EV]. destruct (linspace_ok a b n Hn) as (ys & E & EV'). rewrite E. f_equal. apply (evenly_det _ _ _ _ _ EV' EV).
Qed.
Lemma fields_iff f hs vs : fields_of f hs vs <-> vs = map f hs.
Proof.
  unfold fields_of. split; [induction 1; cbn; congruence|]. intros ->. induction hs; cbn; constructor; auto.
Qed.
Lemma removelast_firstn_ {A} (xs : list A) : removelast xs = firstn (length xs - 1) xs.
Proof. induction xs as [|x xs IH]; [reflexivity|]. cbn [removelast length]. destruct xs as [|y xs]; [reflexivity|]. rewrite IH. cbn [length firstn Nat.sub]. replace (S (length xs) - 0)%nat with (S (length xs)) by lia. replace (length xs - 0)%nat with (length xs) by lia. reflexivity. Qed.
Lemma nth_error_firstn {A} (xs : list A) : forall n i, (i < n)%nat -> nth_error (firstn n xs) i = nth_error xs i.
Proof. induction xs as [|x xs IH]; intros [|n] [|i] H; try lia; try reflexivity; cbn. apply IH. lia. Qed.
Lemma nth_error_rev {A} (xs : list A) i : (i < length xs)%nat -> nth_error (rev xs) (length xs - 1 - i) = nth_error xs i.
Proof.
  intros H. destruct xs as [|d xs]; [cbn in H; lia|]. set (l := d :: xs) in *. rewrite (nth_error_nth' (rev l) d) by (rewrite rev_length; lia). rewrite rev_nth by lia. rewrite (nth_error_nth' l d) by exact H. do 2 f_equal. lia.
Qed.
Lemma back_iff {A} (xs ys : list A) : ys = (removelast xs ++ rev xs)%list <-> there_and_back xs ys.
Proof.
  assert (S : there_and_back xs (removelast xs ++ rev xs)%list).
  { rewrite removelast_firstn_. assert (L : length (firstn (length xs - 1) xs) = (length xs - 1)%nat) by (rewrite firstn_length; lia).
    assert (LL : length (firstn (length xs - 1) xs ++ rev xs) = (2 * length xs - 1)%nat) by (rewrite app_length, L, rev_length; lia).
    split; [exact LL|]. rewrite LL. split; intros i Hi.
    - destruct (Nat.lt_ge_cases i (length xs - 1)) as [X|X]; [rewrite nth_error_app1 by lia; apply nth_error_firstn; exact X|]. rewrite nth_error_app2 by lia. rewrite L.
      replace (i - (length xs - 1))%nat with (length xs - 1 - i)%nat by lia. apply nth_error_rev. exact Hi.
    - rewrite nth_error_app2 by lia. rewrite L. replace (2 * length xs - 1 - 1 - i - (length xs - 1))%nat with (length xs - 1 - i)%nat by lia. apply nth_error_rev. exact Hi. }
  split; [intros ->; exact S|]. intros T. destruct S as (S1 & S2 & S3), T as (T1 & T2 & T3).
  set (zs := (removelast xs ++ rev xs)%list) in *. assert (K : forall i, nth_error ys i = nth_error zs i).
  { intros i. destruct (Nat.lt_ge_cases i (length xs)) as [X|X]; [rewrite S2, T2 by exact X; reflexivity|]. destruct (Nat.lt_ge_cases i (length ys)) as [Y|Y]; [|repeat rewrite (proj2 (nth_error_None _ _)) by lia; reflexivity].
    specialize (S3 (length ys - 1 - i)%nat ltac:(lia)). specialize (T3 (length ys - 1 - i)%nat ltac:(lia)). replace (length zs) with (length ys) in S3 by lia. replace (length ys - 1 - (length ys - 1 - i))%nat with i in * by lia. congruence. }
  clearbody zs. clear -K. revert zs K. induction ys as [|x ys IH]; intros [|y zs] K; [reflexivity|specialize (K 0%nat); discriminate|specialize (K 0%nat); discriminate|]. pose proof (K 0%nat) as E. cbn in E. injection E as <-. f_equal. apply IH. intros i. exact (K (S i)).
Qed.
Lemma scan_iff a b n th ph t p hs vs : degrees th t -> degrees ph p -> amplitude_scan a b n th ph false = Ok (hs, vs) <->
  (0 <= n)%Z /\ evenly a b (Z.to_nat n) hs /\ fields_of (fun h => point t p h) hs vs.
Proof.
  intros HT HP. apply deg_iff in HT. apply deg_iff in HP. rewrite fields_iff. unfold amplitude_scan, trig_compute. rewrite HT, HP. split.
  - intros H. destruct (linspace a b n) as [xs|e] eqn:E; [|discriminate]. cbn in H. injection H as <- <-. apply linspace_iff in E. destruct E as [E1 E2]. split; [exact E1|]. split; [exact E2|]. apply map_ext. intros h. unfold point. f_equal; ring.
  - intros (H1 & H2 & ->). rewrite (proj2 (linspace_iff a b n hs)) by auto. cbn. do 2 f_equal. apply map_ext. intros h. unfold point. f_equal; ring.
Qed.
Lemma map_removelast {A B} (f : A -> B) xs : map f (removelast xs) = removelast (map f xs).
Proof. induction xs as [|x xs IH]; [reflexivity|]. cbn [removelast map]. destruct xs as [|y xs]; [reflexivity|]. cbn [map] in *. rewrite IH. reflexivity. Qed.
Lemma scan_back_iff a b n th ph hs vs : amplitude_scan a b n th ph true = Ok (hs, vs) <->
  exists hs' vs', amplitude_scan a b n th ph false = Ok (hs', vs') /\ there_and_back hs' hs /\ there_and_back vs' vs.
Proof.
  unfold amplitude_scan, trig_compute. split.
  - intros H. destruct (linspace a b n) as [xs|e] eqn:E; [|discriminate]. cbn in H. injection H as <- <-. do 2 eexists. split; [reflexivity|]. split; apply back_iff; reflexivity.
  - intros (hs' & vs' & H & A & B). destruct (linspace a b n) as [xs|e] eqn:E; [|discriminate]. cbn in H. injection H as <- <-. apply back_iff in A. apply back_iff in B. cbn. rewrite A, B. reflexivity.
Qed.
Lemma palindrome {A} (xs ys : list A) : there_and_back xs ys -> rev ys = ys.
Proof.
  intros H. apply back_iff in H. subst ys. rewrite rev_app_distr, rev_involutive. destruct xs as [|a xs] using rev_ind; [reflexivity|]. rewrite removelast_last. rewrite rev_app_distr. cbn. rewrite <- app_assoc. reflexivity.
Qed.
Lemma theta_scan_iff a b n amp ph p hs vs : degrees ph p -> theta_scan a b n amp ph = Ok (hs, vs) <->
  (0 <= n)%Z /\ evenly a b (Z.to_nat n) hs /\ fields_of (fun h => point (deg2rad h) p amp) hs vs.
Proof.
  intros HP. apply deg_iff in HP. rewrite fields_iff. unfold theta_scan, trig_compute. rewrite HP. split.
  - intros H. destruct (linspace a b n) as [xs|e] eqn:E; [|discriminate]. cbn in H. injection H as <- <-. apply linspace_iff in E. destruct E as [E1 E2]. split; [exact E1|]. split; [exact E2|]. apply map_ext. intros h. unfold point. f_equal; ring.
  - intros (H1 & H2 & ->). rewrite (proj2 (linspace_iff a b n hs)) by auto. cbn. do 2 f_equal. apply map_ext. intros h. unfold point. f_equal; ring.
Qed.
Lemma phi_scan_iff a b n amp th t hs vs : degrees th t -> phi_scan a b n amp th = Ok (hs, vs) <->
  (0 <= n)%Z /\ evenly a b (Z.to_nat n) hs /\ fields_of (fun h => point t (deg2rad h) amp) hs vs.
Proof.
  intros HP. apply deg_iff in HP. rewrite fields_iff. unfold phi_scan, trig_compute. rewrite HP. split.
  - intros H. destruct (linspace a b n) as [xs|e] eqn:E; [|discriminate]. cbn in H. injection H as <- <-. apply linspace_iff in E. destruct E as [E1 E2]. split; [exact E1|]. split; [exact E2|]. apply map_ext. intros h. unfold point. f_equal; ring.
  - intros (H1 & H2 & ->). rewrite (proj2 (linspace_iff a b n hs)) by auto. cbn. do 2 f_equal. apply map_ext. intros h. unfold point. f_equal; ring.
Qed.
(** ** Box-Muller *)
Lemma psqrt_iff x s : py_sqrt x = Ok s <-> 0 <= s /\ s * s = x.
Proof.
  unfold py_sqrt. destruct (Rlt_dec x 0) as [H|H]; [split; [discriminate|intros [A B]; nra]|]. split.
  - intros E. injection E as <-. split; [apply sqrt_pos|]. apply sqrt_sqrt. lra.
  - intros [A <-]. f_equal. apply sqrt_square. exact A.
Qed.
Lemma muller_iff mean std u1 u2 z0 z1 : box_muller_random mean std u1 u2 = Ok (z0, z1) <->
  0 < u1 <= 1 /\ exists s, 0 <= s /\ s * s = -2 * ln u1 /\ z0 - mean = std * s * cos (2 * PI * u2) /\ z1 - mean = std * s * sin (2 * PI * u2).
Proof.
  assert (D : forall u, 0 < u -> (0 <= -2 * ln u <-> u <= 1)).
  { intros u Hu. split; intros H; [destruct (Rle_dec u 1) as [X|X]; [exact X|]; assert (ln 1 < ln u) by (apply ln_increasing; lra); rewrite ln_1 in *; lra|]. destruct H as [H| ->]; [assert (ln u < ln 1) by (apply ln_increasing; lra); rewrite ln_1 in *; lra|rewrite ln_1; lra]. }
  unfold box_muller_random, py_log. split.
  - destruct (Rlt_dec 0 u1) as [H|H]; [|discriminate]. cbn [rbind]. destruct (py_sqrt (-2 * ln u1)) as [s|e] eqn:E; [|discriminate]. intros X. cbn in X. injection X as <- <-. apply psqrt_iff in E. destruct E as [E1 E2]. split; [split; [exact H|]|].
    + apply D; [exact H|]. nra.
    + exists s. split; [exact E1|]. split; [exact E2|]. split; ring.
  - intros ([H1 H2] & s & S1 & S2 & S3 & S4). destruct (Rlt_dec 0 u1) as [H|H]; [|contradiction]. cbn [rbind]. rewrite (proj2 (psqrt_iff (-2 * ln u1) s)) by auto. cbn. f_equal. f_equal; lra.
Qed.
