(** The error of every time-stepping scheme against the solution of the differential equations. *)
From Verif Require Import P_RunProps P_LayerProps P_Step4 P_PimmProps.
From Verif Require Export P_Metric.
From Coq Require Import Reals Lra Lia Psatz.
Open Scope R_scope.

(** [v] is reached from [m] by an increment [dt phi] that is close to [dt f]. *)
Definition increment (M A dt : R) (m f v : cvec) : Prop :=
  exists phi, v = Plus m (Scal dt phi) /\ Norm phi <= M /\ Distance phi f <= A * dt.

Lemma Norm_step m k f M dt : Norm m <= 1 -> 0 <= k <= dt -> Norm f <= M -> dt * M <= 1 -> Norm (Plus m (Scal k f)) <= 2.
Proof.
  intros Hm Hk Hf Hd. pose proof (Norm_triangle m (Scal k f)) as H. rewrite Norm_scal, Rabs_pos_eq in H by lra. pose proof (Norm_nonneg f).
  assert (k * Norm f <= dt * M) by (apply Rmult_le_compat; lra). lra.
Qed.
Lemma Distance_step m k f M : 0 <= k -> Norm f <= M -> Distance (Plus m (Scal k f)) m <= k * M.
Proof. intros Hk Hf. rewrite Distance_self_plus, Norm_scal, Rabs_pos_eq by lra. apply Rmult_le_compat_l; lra. Qed.

Section Step.
Context (T M L t dt : R) (l : layer) (b w : cvec).
Context (HL : 0 <= L) (HD : 0 < dt) (HM : dt * M <= 1) (H0 : 0 <= t) (H1 : t + dt <= T).
Context (HR : regular T M L l) (Hm : Norm (l_mag l) <= 1) (Hb : Norm b <= 2) (Hw : Norm w <= 2).
Let A := drift_change M L.
Let m := l_mag l.

Lemma one_bounds f : rhs l t m b w f -> Norm f <= M /\ 0 <= M.
Proof. intros F. assert (B : Norm f <= M) by (apply (HR t m b w f); try assumption; [lra|unfold m; lra]). pose proof (Norm_nonneg f). lra. Qed.
(** A value of the right-hand side within one step of the start. *)
Lemma one_stage f s v b' w' d : rhs l t m b w f -> t <= s <= t + dt -> Norm v <= 2 -> Distance v m <= dt * M ->
  Norm b' <= 2 -> Distance b' b <= dt * M -> Norm w' <= 2 -> Distance w' w <= dt * M -> rhs l s v b' w' d ->
  Norm d <= M /\ Distance d f <= A * dt.
Proof.
  intros F Hs Hv Dv Hb' Db Hw' Dw D. destruct (HR s v b' w' d) as [B Lip]; try assumption; [lra|]. split; [exact B|].
  specialize (Lip t m b w f). assert (X : Distance d f <= L * (Rabs (s - t) + Distance v m + Distance b' b + Distance w' w)) by (apply Lip; try assumption; [lra|unfold m; lra]).
  apply Rle_trans with (1 := X). unfold A, drift_change. rewrite Rmult_assoc. apply Rmult_le_compat_l; [exact HL|].
  rewrite Rabs_pos_eq by lra. lra.
Qed.
Lemma rk4_increment m' : RK4_scheme (fun s v d => rhs l s v b w d) t dt m m' ->
  exists f v, rhs l t m b w f /\ increment M A dt m f v /\ Normalised v m'.
Proof.
  intros (f1 & f2 & f3 & f4 & F1 & F2 & F3 & F4 & HN). destruct (one_bounds f1 F1) as [B1 MP].
  assert (SB : Distance b b <= dt * M) by (rewrite Distance_refl; nra). assert (SW : Distance w w <= dt * M) by (rewrite Distance_refl; nra).
  assert (HS : forall k f, 0 <= k <= dt -> Norm f <= M -> Norm (Plus m (Scal k f)) <= 2 /\ Distance (Plus m (Scal k f)) m <= dt * M).
  { intros k f Hk Hf. split; [apply (Norm_step m k f M dt); assumption|].
    apply Rle_trans with (k * M); [apply Distance_step; lra|]. apply Rmult_le_compat_r; lra. }
  destruct (HS (dt / 2) f1) as [N2 D2]; [lra|exact B1|].
  destruct (one_stage f1 (t + dt / 2) _ b w f2 F1 ltac:(lra) N2 D2 Hb SB Hw SW F2) as [B2 E2].
  destruct (HS (dt / 2) f2) as [N3 D3]; [lra|exact B2|].
  destruct (one_stage f1 (t + dt / 2) _ b w f3 F1 ltac:(lra) N3 D3 Hb SB Hw SW F3) as [B3 E3].
  destruct (HS dt f3) as [N4 D4]; [lra|exact B3|].
  destruct (one_stage f1 (t + dt) _ b w f4 F1 ltac:(lra) N4 D4 Hb SB Hw SW F4) as [B4 E4].
  set (phi := Scal (1 / 6) (Sum [f1; Scal 2 f2; Scal 2 f3; f4])).
  exists f1, (Plus m (Scal dt phi)). split; [exact F1|]. split; [|].
  - exists phi. split; [reflexivity|].
    assert (AP : 0 <= A * dt) by (pose proof (Distance_nonneg f2 f1); lra).
    split.
    + unfold phi. rewrite Norm_scal, Rabs_pos_eq by lra. cbn [Sum fold_right].
      pose proof (Norm_triangle f1 (Plus (Scal 2 f2) (Plus (Scal 2 f3) (Plus f4 Zero)))).
      pose proof (Norm_triangle (Scal 2 f2) (Plus (Scal 2 f3) (Plus f4 Zero))).
      pose proof (Norm_triangle (Scal 2 f3) (Plus f4 Zero)). pose proof (Norm_triangle f4 Zero).
      rewrite !Norm_scal in *. rewrite !(Rabs_pos_eq 2) in * by lra. rewrite Norm_Zero in *. lra.
    + assert (EF : f1 = Scal (1 / 6) (Plus f1 (Plus (Scal 2 f1) (Plus (Scal 2 f1) (Plus f1 Zero))))).
      { destruct f1. unfold Scal, Plus, Zero. apply vec_eq; field. }
      rewrite EF at 1. unfold phi. rewrite Distance_scal, Rabs_pos_eq by lra. cbn [Sum fold_right]. rewrite Distance_plus_l.
      pose proof (Distance_plus (Scal 2 f2) (Plus (Scal 2 f3) (Plus f4 Zero)) (Scal 2 f1) (Plus (Scal 2 f1) (Plus f1 Zero))).
      pose proof (Distance_plus (Scal 2 f3) (Plus f4 Zero) (Scal 2 f1) (Plus f1 Zero)).
      pose proof (Distance_plus f4 Zero f1 Zero). rewrite !Distance_scal in *. rewrite !(Rabs_pos_eq 2) in * by lra. rewrite Distance_refl in *. lra.
  - replace (Plus m (Scal dt phi)) with (Plus m (Scal (dt / 6) (Sum [f1; Scal 2 f2; Scal 2 f3; f4]))); [exact HN|].
    unfold phi. generalize (Sum [f1; Scal 2 f2; Scal 2 f3; f4]) m. intros [] []. unfold Scal, Plus. apply vec_eq; field.
Qed.
Lemma euler_increment m' : EulerHeun_scheme l t dt b w Zero m' ->
  exists f v, rhs l t m b w f /\ increment M A dt m f v /\ Normalised v m'.
Proof.
  intros (_ & f & F & H). cbv zeta beta in H. rewrite !plain_no_field, !Plus_Zero_r, !Scal_Zero, !Plus_Zero_r in H.
  destruct (one_bounds f F) as [B MP]. exists f, (Plus m (Scal dt f)). split; [exact F|]. split; [|exact H].
  exists f. split; [reflexivity|]. split; [exact B|]. rewrite Distance_refl. unfold A, drift_change. repeat apply Rmult_le_pos; lra.
Qed.
Lemma heun_predicted q : Heun_predictor l t dt b w Zero q -> Norm q <= 2 /\ Distance q m <= dt * M.
Proof.
  intros (_ & f & F & ->). rewrite plain_no_field, Scal_Zero, Plus_Zero_r. destruct (one_bounds f F) as [B MP]. split.
  - apply (Norm_step m dt f M dt); try assumption. lra.
  - apply Distance_step; lra.
Qed.
Lemma heun_increment q bp wp m' : Norm q <= 2 -> Distance q m <= dt * M -> Norm bp <= 2 -> Distance bp b <= dt * M -> Norm wp <= 2 -> Distance wp w <= dt * M ->
  Heun_corrector l t dt b w Zero q bp wp m' ->
  exists f v, rhs l t m b w f /\ increment M A dt m f v /\ Normalised v m'.
Proof.
  intros Nq Dq Nb Db Nw Dw (f & g & F & G & H). rewrite !plain_no_field, !Plus_Zero_r, !Scal_Zero, !Plus_Zero_r in H.
  destruct (one_bounds f F) as [B MP]. destruct (one_stage f (t + dt) q bp wp g F ltac:(lra) Nq Dq Nb Db Nw Dw G) as [BG EG].
  set (phi := Scal (1 / 2) (Plus f g)). exists f, (Plus m (Scal dt phi)). split; [exact F|]. split.
  - exists phi. split; [reflexivity|]. split.
    + unfold phi. rewrite Norm_scal, Rabs_pos_eq by lra. pose proof (Norm_triangle f g). lra.
    + assert (EF : f = Scal (1 / 2) (Plus f f)) by (destruct f; unfold Scal, Plus; apply vec_eq; field).
      rewrite EF at 1. unfold phi. rewrite Distance_scal, Rabs_pos_eq, Distance_plus_l by lra. pose proof (Distance_nonneg g f). lra.
  - replace (Plus m (Scal dt phi)) with (Plus m (Scal (dt / 2) (Plus f g))); [exact H|].
    unfold phi. generalize (Plus f g) m. intros [] []. unfold Scal, Plus. apply vec_eq; field.
Qed.
End Step.

(** Neighbours of bounded lists are bounded, neighbours of close lists are close. *)
Lemma below_bound ms p K : 0 <= K -> (forall q v, nth_error ms q = Some v -> Norm v <= K) -> Norm (below ms p) <= K.
Proof.
  intros HK H. destruct p as [|q]; cbn [below]; [rewrite Norm_Zero; exact HK|].
  destruct (nth_error ms q) as [v|] eqn:E; [rewrite (nth_error_nth _ _ _ E); eauto|].
  rewrite nth_overflow by (apply nth_error_None; exact E). rewrite Norm_Zero. exact HK.
Qed.
Lemma above_bound ms p K : 0 <= K -> (forall q v, nth_error ms q = Some v -> Norm v <= K) -> Norm (above ms p) <= K.
Proof.
  intros HK H. unfold above. destruct (nth_error ms (S p)) as [v|] eqn:E; [rewrite (nth_error_nth _ _ _ E); eauto|].
  rewrite nth_overflow by (apply nth_error_None; exact E). rewrite Norm_Zero. exact HK.
Qed.
Definition close (K : R) (xs ys : list cvec) : Prop :=
  length xs = length ys /\ forall q x y, nth_error xs q = Some x -> nth_error ys q = Some y -> Distance x y <= K.
Lemma close_nth K xs ys q : 0 <= K -> close K xs ys -> Distance (nth q xs Zero) (nth q ys Zero) <= K.
Proof.
  intros HK [HL H]. destruct (nth_error xs q) as [x|] eqn:E.
  - destruct (nth_error_same_length _ _ _ _ (eq_sym HL) E) as [y Ey]. rewrite (nth_error_nth _ _ _ E), (nth_error_nth _ _ _ Ey). eauto.
  - apply nth_error_None in E. rewrite !nth_overflow by lia. rewrite Distance_refl. exact HK.
Qed.
Lemma close_below K xs ys p : 0 <= K -> close K xs ys -> Distance (below xs p) (below ys p) <= K.
Proof. intros HK H. destruct p; cbn [below]; [rewrite Distance_refl; exact HK|apply close_nth; assumption]. Qed.
Lemma close_above K xs ys p : 0 <= K -> close K xs ys -> Distance (above xs p) (above ys p) <= K.
Proof. intros. apply close_nth; assumption. Qed.

(** ** One step of any scheme *)
Lemma step_increment T M L r t dt j j' p l l' : 0 <= L -> 0 < dt -> dt * M <= 1 -> 0 <= t -> t + dt <= T ->
  (forall q k, nth_error (j_layers j) q = Some k -> regular T M L k /\ quiet k /\ Norm (l_mag k) <= 1) ->
  (r = RunSingle -> length (j_layers j) = 1%nat) ->
  run_runner r t dt j = (j', Ok tt) -> nth_error (j_layers j) p = Some l -> nth_error (j_layers j') p = Some l' ->
  exists f v, rhs l t (l_mag l) (below (mags (j_layers j)) p) (above (mags (j_layers j)) p) f /\
    increment M (drift_change M L) dt (l_mag l) f v /\ Normalised v (l_mag l').
Proof.
  intros HL HD HM H0 H1 HA Hr E Hp Hp'.
  assert (NB : forall q, Norm (below (mags (j_layers j)) q) <= 2 /\ Norm (above (mags (j_layers j)) q) <= 2).
  { intros q. assert (X : forall i v, nth_error (mags (j_layers j)) i = Some v -> Norm v <= 2).
    { intros i v V. unfold mags in V. rewrite nth_error_map in V. destruct (nth_error (j_layers j) i) as [k|] eqn:K; [|discriminate]. injection V as <-. destruct (HA i k K) as (_ & _ & ?). lra. }
    split; [apply below_bound|apply above_bound]; try lra; exact X. }
  destruct (HA p l Hp) as (HR & HQ & Hm). destruct (NB p) as [Hb Hw]. destruct r; cbn [run_runner] in E.
  - apply single_sound in E. destruct E as (_ & _ & S). specialize (S p l l' Hp Hp'). specialize (Hr eq_refl).
    assert (p = 0%nat). { assert (p < length (j_layers j))%nat by (apply nth_error_Some; congruence). lia. } subst p. destruct S as [S _].
    assert (X : above (mags (j_layers j)) 0 = Zero). { unfold above. apply nth_overflow. unfold mags. rewrite map_length. lia. }
    rewrite X. cbn [below] in *. apply (rk4_increment T M L t dt l Zero Zero); assumption.
  - apply multi_sound in E. destruct E as (_ & _ & S). destruct (S p l l' Hp Hp') as [S' _]. apply (rk4_increment T M L t dt l); assumption.
  - apply heun_sound in E. destruct E as (ws & ps & Lw & Lp & _ & LL & S).
    assert (PB : forall q k, nth_error (j_layers j) q = Some k -> exists v, nth_error ps q = Some v /\ Norm v <= 2 /\ Distance v (l_mag k) <= dt * M).
    { intros q k K. destruct (nth_error_same_length _ _ _ _ LL K) as [k' K']. destruct (S q k k' K K') as (wq & v & c & _ & Pv & NS & HPr & _).
      destruct (HA q k K) as (HRk & HQk & Hmk). destruct (NB q). apply quiet_noise in NS; [|exact HQk]. subst wq.
      exists v. split; [exact Pv|]. apply (heun_predicted T M L t dt k (below (mags (j_layers j)) q) (above (mags (j_layers j)) q)); assumption. }
    assert (CP : close (dt * M) ps (mags (j_layers j))).
    { split; [unfold mags; rewrite map_length; exact Lp|]. intros q x y X Y. unfold mags in Y. rewrite nth_error_map in Y. destruct (nth_error (j_layers j) q) as [k|] eqn:K; [|discriminate].
      injection Y as <-. destruct (PB q k K) as (v & V & _ & D). congruence. }
    assert (BP : forall q v, nth_error ps q = Some v -> Norm v <= 2).
    { intros q v V. destruct (nth_error_same_length _ _ _ _ (eq_sym Lp) V) as [k K]. destruct (PB q k K) as (v' & V' & B & _). congruence. }
    destruct (PB p l Hp) as (v & Pv & Nv & Dv). pose proof (Distance_nonneg v (l_mag l)).
    destruct (S p l l' Hp Hp') as (wq & v' & c & _ & Pv' & NS & HPr & HC & _). apply quiet_noise in NS; [|exact HQ]. subst wq.
    assert (v' = v) by congruence. subst v'.
    apply (heun_increment T M L t dt l (below (mags (j_layers j)) p) (above (mags (j_layers j)) p)) with (q := v) (bp := below ps p) (wp := above ps p); try assumption.
    + apply below_bound; [lra|exact BP].
    + apply close_below; [lra|exact CP].
    + apply above_bound; [lra|exact BP].
    + apply close_above; [lra|exact CP].
  - apply eh_sound in E. destruct E as (_ & _ & S). destruct (S p l l' Hp Hp') as (wq & c & NS & SC & _). apply quiet_noise in NS; [|exact HQ]. subst wq.
    apply (euler_increment T M L t dt l); assumption.
Qed.

(** The length defect of an increment that is nearly tangent. *)
Lemma increment_defect M A dt m f v : 0 <= M -> 0 < dt -> Unit m -> Dot m f = 0 -> increment M A dt m f v ->
  Rabs (Norm2 v - 1) <= (2 * A + M * M) * (dt * dt).
Proof.
  intros HM HD Hm Ht (phi & -> & B & D).
  assert (E : Norm2 (Plus m (Scal dt phi)) - 1 = 2 * dt * Dot m (Minus phi f) + dt * dt * Norm2 phi).
  { rewrite Dot_minus, Ht. unfold Unit in Hm. rewrite <- Hm. destruct m, phi. unfold Norm2, Dot, Plus, Scal. ring. }
  rewrite E. pose proof (Dot_le m (Minus phi f)) as C. rewrite (Norm_unit m Hm), Rmult_1_l in C. fold (Distance phi f) in C.
  pose proof (Norm_nonneg phi). assert (N2 : 0 <= Norm2 phi <= M * M) by (rewrite <- Norm_sqr; split; [apply Rmult_le_pos; lra|apply Rmult_le_compat; lra]).
  apply Rle_trans with (Rabs (2 * dt * Dot m (Minus phi f)) + Rabs (dt * dt * Norm2 phi)); [apply Rabs_triang|].
  rewrite !Rabs_mult. rewrite (Rabs_pos_eq 2), (Rabs_pos_eq dt), (Rabs_pos_eq (Norm2 phi)) by lra.
  assert (Rabs (Dot m (Minus phi f)) <= A * dt) by lra. assert (0 < dt * dt) by nra.
  assert (2 * dt * Rabs (Dot m (Minus phi f)) <= 2 * dt * (A * dt)) by (apply Rmult_le_compat_l; lra).
  assert (dt * dt * Norm2 phi <= dt * dt * (M * M)) by (apply Rmult_le_compat_l; lra). lra.
Qed.
Lemma increment_unit M A dt m f v m' : 0 < dt -> dt * M < 1 -> Unit m -> increment M A dt m f v -> Normalised v m' -> v <> Zero /\ Unit m'.
Proof.
  intros HD HM Hm (phi & E & B & _) HN.
  assert (NZ : v <> Zero).
  { intros Z. rewrite Z in E. assert (X : Distance (Plus m (Scal dt phi)) m = Norm (Scal dt phi)) by apply Distance_self_plus.
    rewrite <- E, Distance_sym, Distance_zero_r, (Norm_unit m Hm), Norm_scal, Rabs_pos_eq in X by lra.
    assert (dt * Norm phi <= dt * M) by (apply Rmult_le_compat_l; lra). lra. }
  split; [exact NZ|]. destruct HN as [[Z _]|[_ ->]]; [contradiction|]. rewrite <- vnormalize_nonzero by exact NZ. apply vnormalize_unit. exact NZ.
Qed.

(** ** The solution stays on the sphere, its neighbours too *)
Section Solution.
Context (ls : list layer) (T M L : R) (u du : nat -> R -> cvec).
Context (HL : 0 <= L) (HR : forall l, In l ls -> regular T M L l).
Context (HS : solves ls T u du) (HU : forall p l, nth_error ls p = Some l -> Unit (u p 0)).

Lemma solution_unit p l t : nth_error ls p = Some l -> 0 <= t <= T -> Unit (u p t).
Proof.
  intros Hp Ht. destruct (Rle_lt_or_eq_dec 0 t (proj1 Ht)) as [P|E]; [|subst t; eauto].
  destruct (MVT_cor2 (fun s => Norm2 (u p s)) (fun s => 2 * Dot (u p s) (du p s)) 0 t P) as (c & E & I).
  - intros c I. destruct (HS p l c Hp) as [_ D]; [lra|]. apply vderiv_norm2. exact D.
  - destruct (HS p l c Hp) as [(i & _ & _ & _ & F) _]; [lra|]. apply llg_spec_tangent in F. cbn beta in E. rewrite F in E.
    unfold Unit. pose proof (HU p l Hp) as U0. unfold Unit in U0. lra.
Qed.
Lemma snapshot_nth q t v : nth_error (snapshot u (length ls) t) q = Some v -> v = u q t /\ exists l, nth_error ls q = Some l.
Proof.
  unfold snapshot. intros H. assert (Q : (q < length ls)%nat).
  { assert (X : (q < length (map (fun i => u i t) (seq 0 (length ls))))%nat) by (apply nth_error_Some; congruence). rewrite map_length, seq_length in X. exact X. }
  rewrite nth_error_map_seq in H by exact Q. injection H as <-. split; [reflexivity|].
  destruct (nth_error ls q) as [l|] eqn:E; [eauto|]. apply nth_error_None in E. lia.
Qed.
Lemma snapshot_bound q t v : 0 <= t <= T -> nth_error (snapshot u (length ls) t) q = Some v -> Norm v <= 1.
Proof. intros Ht H. destruct (snapshot_nth q t v H) as [-> [l Hl]]. rewrite (Norm_unit _ (solution_unit q l t Hl Ht)). lra. Qed.
Lemma solution_speed p l t : nth_error ls p = Some l -> 0 <= t <= T -> Norm (du p t) <= M.
Proof.
  intros Hp Ht. destruct (HS p l t Hp Ht) as [F _]. apply (HR l (nth_error_In _ _ Hp) _ _ _ _ _ Ht) in F; [apply F| | |].
  - rewrite (Norm_unit _ (solution_unit p l t Hp Ht)). lra.
  - apply Rle_trans with 1; [|lra]. apply below_bound; [lra|]. intros q v. apply snapshot_bound. exact Ht.
  - apply Rle_trans with 1; [|lra]. apply above_bound; [lra|]. intros q v. apply snapshot_bound. exact Ht.
Qed.
Lemma solution_close p l a b : nth_error ls p = Some l -> 0 <= a -> a <= b -> b <= T -> Distance (u p b) (u p a) <= M * (b - a).
Proof.
  intros Hp A B C. apply (speed (u p) (du p)); [exact B|]. intros t Ht. split; [apply (HS p l t Hp); lra|apply (solution_speed p l t Hp); lra].
Qed.
Lemma snapshot_close a b : 0 <= a -> a <= b -> b <= T -> close (M * (b - a)) (snapshot u (length ls) b) (snapshot u (length ls) a).
Proof.
  intros A B C. split; [unfold snapshot; rewrite !map_length; reflexivity|]. intros q x y X Y.
  destruct (snapshot_nth _ _ _ X) as [-> [l Hl]]. destruct (snapshot_nth _ _ _ Y) as [-> _]. apply (solution_close q l); assumption.
Qed.
Lemma solution_drift p l a b : nth_error ls p = Some l -> 0 <= a -> a <= b -> b <= T -> Distance (du p b) (du p a) <= drift_change M L * (b - a).
Proof.
  intros Hp A B C. assert (IA : 0 <= a <= T) by lra. assert (IB : 0 <= b <= T) by lra.
  pose proof (solution_speed p l a Hp IA) as MP. pose proof (Norm_nonneg (du p a)).
  assert (NB : forall t, 0 <= t <= T -> Norm (u p t) <= 2 /\ Norm (below (snapshot u (length ls) t) p) <= 2 /\ Norm (above (snapshot u (length ls) t) p) <= 2).
  { intros t Ht. split; [rewrite (Norm_unit _ (solution_unit p l t Hp Ht)); lra|].
    split; (apply Rle_trans with 1; [|lra]); [apply below_bound|apply above_bound]; try lra; intros q v; apply snapshot_bound; exact Ht. }
  destruct (NB a IA) as (A1 & A2 & A3). destruct (NB b IB) as (B1 & B2 & B3).
  destruct (HS p l a Hp IA) as [FA _]. destruct (HS p l b Hp IB) as [FB _].
  destruct (HR l (nth_error_In _ _ Hp) _ _ _ _ _ IB B1 B2 B3 FB) as [_ Lip]. specialize (Lip _ _ _ _ _ IA A1 A2 A3 FA).
  apply Rle_trans with (1 := Lip). unfold drift_change. rewrite Rmult_assoc. apply Rmult_le_compat_l; [exact HL|].
  assert (K : 0 <= M * (b - a)) by (apply Rmult_le_pos; lra).
  pose proof (solution_close p l a b Hp A B C). pose proof (close_below _ _ _ p K (snapshot_close a b A B C)). pose proof (close_above _ _ _ p K (snapshot_close a b A B C)).
  rewrite Rabs_pos_eq by lra. lra.
Qed.
Lemma solution_tangent p l a b : nth_error ls p = Some l -> 0 <= a -> a <= b -> b <= T ->
  Distance (u p b) (Plus (u p a) (Scal (b - a) (du p a))) <= drift_change M L * (b - a) * (b - a).
Proof.
  intros Hp A B C. pose proof (solution_speed p l a Hp ltac:(lra)). pose proof (Norm_nonneg (du p a)).
  apply (tangent_error (u p) (du p)); [exact B|unfold drift_change; apply Rmult_le_pos; lra|].
  intros t Ht. split; [apply (HS p l t Hp); lra|apply (solution_drift p l); try assumption; lra].
Qed.

(** One step of a layer whose state and neighbours are within [E] of the solution. *)
Lemma step_error p l k t dt E ms f v m' : nth_error ls p = Some l -> static l k -> 0 <= E -> 0 <= t -> 0 < dt -> t + dt <= T -> dt * M < 1 ->
  Unit (l_mag k) -> close E ms (snapshot u (length ls) t) -> (forall q x, nth_error ms q = Some x -> Norm x <= 1) ->
  Distance (l_mag k) (u p t) <= E ->
  rhs k t (l_mag k) (below ms p) (above ms p) f -> increment M (drift_change M L) dt (l_mag k) f v -> Normalised v m' ->
  Unit m' /\ Distance m' (u p (t + dt)) <= E * (1 + 3 * L * dt) + local_error M L * dt * dt.
Proof.
  intros Hp Hst HE H0 HD HT HM Hm HC HB HP F HI HN.
  destruct (increment_unit M _ dt _ f v m' HD HM Hm HI HN) as [NZ U']. split; [exact U'|].
  pose proof (solution_speed p l t Hp ltac:(lra)) as MP. pose proof (Norm_nonneg (du p t)).
  assert (TG : Dot (l_mag k) f = 0) by (destruct F as (i & _ & _ & _ & F); exact (llg_spec_tangent _ _ _ _ _ _ _ F)).
  pose proof (increment_defect M (drift_change M L) dt _ f v ltac:(lra) HD Hm TG HI) as DF.
  pose proof (length_defect v) as LD. destruct HN as [[Z _]|[_ E']]; [contradiction|].
  pose proof (normal_dist v NZ) as ND. rewrite <- E' in ND.
  assert (IT : 0 <= t <= T) by lra. destruct (HS p l t Hp IT) as [FU _].
  assert (FK : rhs l t (l_mag k) (below ms p) (above ms p) f) by (apply (static_rhs k l); [apply static_sym; exact Hst|exact F]).
  assert (NB : Norm (u p t) <= 2 /\ Norm (below (snapshot u (length ls) t) p) <= 2 /\ Norm (above (snapshot u (length ls) t) p) <= 2).
  { split; [rewrite (Norm_unit _ (solution_unit p l t Hp IT)); lra|].
    split; (apply Rle_trans with 1; [|lra]); [apply below_bound|apply above_bound]; try lra; intros q x; apply snapshot_bound; exact IT. }
  destruct NB as (N1 & N2 & N3).
  assert (K2 : Norm (below ms p) <= 2) by (apply Rle_trans with 1; [apply below_bound; [lra|exact HB]|lra]).
  assert (K3 : Norm (above ms p) <= 2) by (apply Rle_trans with 1; [apply above_bound; [lra|exact HB]|lra]).
  assert (K1 : Norm (l_mag k) <= 2) by (rewrite (Norm_unit _ Hm); lra).
  destruct (HR l (nth_error_In _ _ Hp) _ _ _ _ _ IT K1 K2 K3 FK) as [_ Lip]. specialize (Lip _ _ _ _ _ IT N1 N2 N3 FU).
  pose proof (close_below _ _ _ p HE HC) as CB. pose proof (close_above _ _ _ p HE HC) as CA.
  assert (FF : Distance f (du p t) <= L * (3 * E)).
  { apply Rle_trans with (1 := Lip). apply Rmult_le_compat_l; [exact HL|]. rewrite Rminus_diag_eq, Rabs_R0 by reflexivity. lra. }
  destruct HI as (phi & Ev & _ & DP).
  assert (PH : Distance phi (du p t) <= drift_change M L * dt + L * (3 * E)) by (pose proof (Distance_triangle phi f (du p t)); lra).
  assert (ST : Distance v (Plus (u p t) (Scal dt (du p t))) <= E + dt * (drift_change M L * dt + L * (3 * E))).
  { rewrite Ev. pose proof (Distance_plus (l_mag k) (Scal dt phi) (u p t) (Scal dt (du p t))) as X. rewrite Distance_scal, Rabs_pos_eq in X by lra.
    assert (dt * Distance phi (du p t) <= dt * (drift_change M L * dt + L * (3 * E))) by (apply Rmult_le_compat_l; lra). lra. }
  pose proof (solution_tangent p l t (t + dt) Hp H0 ltac:(lra) HT) as TE. replace (t + dt - t) with dt in TE by ring. rewrite Distance_sym in TE.
  pose proof (Distance_triangle m' v (u p (t + dt))). pose proof (Distance_triangle v (Plus (u p t) (Scal dt (du p t))) (u p (t + dt))).
  unfold local_error. lra.
Qed.
End Solution.

(** Discrete Gronwall. *)
Fixpoint errors (L C dt : R) (k : nat) : R := match k with O => 0 | S i => errors L C dt i * (1 + 3 * L * dt) + C * dt * dt end.
Lemma errors_nonneg L C dt k : 0 <= L -> 0 <= C -> 0 < dt -> 0 <= errors L C dt k.
Proof.
  intros HL HC HD. induction k as [|k IH]; [cbn; lra|]. cbn [errors]. assert (0 <= L * dt) by (apply Rmult_le_pos; lra).
  assert (0 <= errors L C dt k * (1 + 3 * L * dt)) by (apply Rmult_le_pos; lra). assert (0 <= C * dt * dt) by (repeat apply Rmult_le_pos; lra). lra.
Qed.
Lemma exp_ge x : 0 <= x -> 1 + x <= exp x.
Proof. intros [H|<-]; [left; apply exp_ineq1; lra|rewrite exp_0; lra]. Qed.
Lemma errors_bound L C dt k : 0 <= L -> 0 <= C -> 0 < dt -> errors L C dt k <= C * (INR k * dt) * exp (3 * L * (INR k * dt)) * dt.
Proof.
  intros HL HC HD. induction k as [|k IH]; [cbn; lra|]. cbn [errors]. rewrite S_INR.
  assert (LD : 0 <= L * dt) by (apply Rmult_le_pos; lra). pose proof (pos_INR k) as PK.
  set (x := 3 * L * (INR k * dt)) in *. replace (3 * L * ((INR k + 1) * dt)) with (x + 3 * L * dt) by (unfold x; ring). rewrite exp_plus.
  pose proof (exp_ge (3 * L * dt) ltac:(lra)) as G. pose proof (exp_pos x).
  assert (X0 : 0 <= x) by (unfold x; assert (0 <= L * (INR k * dt)) by (repeat apply Rmult_le_pos; lra); lra). pose proof (exp_ge x X0) as GX.
  set (Q := C * (INR k * dt) * exp x * dt) in *. assert (0 <= Q) by (unfold Q; repeat apply Rmult_le_pos; lra).
  assert (S1 : errors L C dt k * (1 + 3 * L * dt) <= Q * exp (3 * L * dt)) by (pose proof (errors_nonneg L C dt k HL HC HD); apply Rmult_le_compat; lra).
  assert (S2 : C * dt * dt <= C * dt * dt * (exp x * exp (3 * L * dt))).
  { assert (0 <= C * dt * dt) by (repeat apply Rmult_le_pos; lra). assert (1 <= exp x * exp (3 * L * dt)) by (replace 1 with (1 * 1) by ring; apply Rmult_le_compat; lra).
    rewrite <- (Rmult_1_r (C * dt * dt)) at 1. apply Rmult_le_compat_l; lra. }
  replace (C * ((INR k + 1) * dt) * (exp x * exp (3 * L * dt)) * dt) with (Q * exp (3 * L * dt) + C * dt * dt * (exp x * exp (3 * L * dt))) by (unfold Q; ring). lra.
Qed.

(** ** The whole trajectory *)
Lemma trajectory_error T M L r dt s N u du : 0 <= L -> 0 <= M -> 0 < dt -> dt * M < 1 -> INR N * dt <= T ->
  (forall l, In l (j_layers (s 0%nat)) -> regular T M L l /\ quiet l /\ Unit (l_mag l)) ->
  (r = RunSingle -> length (j_layers (s 0%nat)) = 1%nat) ->
  trajectory r dt s N -> solves (j_layers (s 0%nat)) T u du -> starts (j_layers (s 0%nat)) u ->
  forall k p l, (k <= N)%nat -> nth_error (j_layers (s k)) p = Some l ->
    Unit (l_mag l) /\ Distance (l_mag l) (u p (INR k * dt)) <= error_bound M L (INR k * dt) dt.
Proof.
  intros HL HMp HD HM HT HA Hr HTr HS H0.
  set (ls := j_layers (s 0%nat)) in *. set (C := local_error M L).
  assert (HC : 0 <= C). { unfold C, local_error, drift_change. assert (0 <= L * (1 + 3 * M)) by (apply Rmult_le_pos; lra). assert (0 <= M * M) by (apply Rmult_le_pos; lra). lra. }
  assert (HU : forall p l, nth_error ls p = Some l -> Unit (u p 0)).
  { intros p l Hp. rewrite (H0 p l Hp). apply (HA l (nth_error_In _ _ Hp)). }
  assert (MAIN : forall k, (k <= N)%nat -> forall p l, nth_error (j_layers (s k)) p = Some l -> Unit (l_mag l) /\ Distance (l_mag l) (u p (INR k * dt)) <= errors L C dt k).
  { induction k as [|k IH]; intros Hk p l Hp.
    - cbn [INR errors]. rewrite Rmult_0_l, (H0 p l Hp), Distance_refl. split; [apply (HA l (nth_error_In _ _ Hp))|lra].
    - specialize (IH ltac:(lia)). pose proof (traj_static _ _ _ _ k HTr ltac:(lia)) as (_ & LE & ST). pose proof (HTr k ltac:(lia)) as E.
      pose proof (step_static _ _ _ _ _ E) as (_ & LE' & _).
      destruct (nth_error_same_length _ _ _ _ (eq_sym LE') Hp) as [k0 Hk0]. destruct (nth_error_same_length _ _ _ _ (eq_sym LE) Hk0) as [l0 Hl0].
      fold ls in LE, Hl0, ST. assert (TK : INR k * dt + dt <= T). { apply Rle_trans with (INR N * dt); [|exact HT]. replace (INR k * dt + dt) with (INR (S k) * dt) by (rewrite S_INR; ring). apply Rmult_le_compat_r; [lra|apply le_INR; lia]. }
      assert (T0 : 0 <= INR k * dt) by (apply Rmult_le_pos; [apply pos_INR|lra]).
      destruct (step_increment T M L r (INR k * dt) dt (s k) (s (S k)) p k0 l) as (f & v & F & HI & HN); try assumption; [lra| | |].
      + intros q x Hx. destruct (nth_error_same_length _ _ _ _ (eq_sym LE) Hx) as [y Hy]. fold ls in Hy.
        pose proof (ST q y x Hy Hx) as SX. destruct (HA y (nth_error_In _ _ Hy)) as (RX & QX & _). destruct (IH q x Hx) as [UX _]. split; [|split].
        * intros t0 v0 b0 w0 d0 I1 I2 I3 I4 I5. destruct (RX t0 v0 b0 w0 d0 I1 I2 I3 I4 (static_rhs x y _ _ _ _ _ (static_sym _ _ SX) I5)) as [R1 R2].
          split; [exact R1|]. intros t' v' b' w' d' J1 J2 J3 J4 J5. apply R2; try assumption. exact (static_rhs x y _ _ _ _ _ (static_sym _ _ SX) J5).
        * destruct SX as (? & ? & ? & ? & ->). exact QX.
        * rewrite (Norm_unit _ UX). lra.
      + intros X. rewrite LE. apply Hr. exact X.
      + destruct (IH p k0 Hk0) as [UK DK]. rewrite S_INR. replace ((INR k + 1) * dt) with (INR k * dt + dt) by ring. cbn [errors].
        apply (step_error ls T M L u du HL (fun x X => proj1 (HA x X)) HS HU p l0 k0 (INR k * dt) dt (errors L C dt k) (mags (j_layers (s k))) f v (l_mag l)); try assumption.
        * exact (ST p l0 k0 Hl0 Hk0).
        * apply errors_nonneg; assumption.
        * split; [unfold snapshot, mags; rewrite !map_length, seq_length; exact LE|]. intros q x y X Y. destruct (snapshot_nth _ _ _ _ _ Y) as [-> _].
          unfold mags in X. rewrite nth_error_map in X. destruct (nth_error (j_layers (s k)) q) as [z|] eqn:Z; [|discriminate]. injection X as <-. apply (IH q z Z).
        * intros q x X. unfold mags in X. rewrite nth_error_map in X. destruct (nth_error (j_layers (s k)) q) as [z|] eqn:Z; [|discriminate]. injection X as <-.
          rewrite (Norm_unit _ (proj1 (IH q z Z))). lra. }
  intros k p l Hk Hp. destruct (MAIN k Hk p l Hp) as [U D]. split; [exact U|]. apply Rle_trans with (1 := D). apply errors_bound; assumption.
Qed.
