(** The equations of motion of a stack of layers whose drivers have no jumps have exactly one solution. *)
From Verif Require Import P_RunProps P_LayerProps P_Step4 P_Converge P_ConvergeRun P_Metric P_Vec P_Regular P_Tame P_StackEnergy P_StackEnergyRun P_Picard.
From Verif Require Export S_Exists.
From Coq Require Import Reals Lra Lia Psatz.
Open Scope R_scope.

(** ** The right-hand side exists *)
Lemma tame_ok T d t : tame T d -> 0 <= t <= T -> getCurrentScalarValue d t = Ok (sval d t).
Proof. intros (B & K & H) Ht. destruct (H t Ht) as (x & E & _). unfold sval. rewrite E. reflexivity. Qed.
Lemma tame_axial_ok T d t : tame_axial T d -> 0 <= t <= T -> getCurrentAxialDrivers d t = Ok (aval d t).
Proof. intros (A & B & C) Ht. unfold getCurrentAxialDrivers, aval. rewrite (tame_ok T _ t A Ht), (tame_ok T _ t B Ht), (tame_ok T _ t C Ht). reflexivity. Qed.
Lemma sound_rhs T l t v b w : sound_layer T l -> dom T (PT t v b w) -> rhs l t v b w (derivative l (PT t v b w)).
Proof.
  intros ((A & B & C & D & E & F & G & H & I & J & K & STT & SOT) & HM & HT) (Ht & Hv & Hb & Hw). cbn [pt_t pt_v pt_b pt_w] in *. exists (ins l t). split; [|split; [exact HM|split; [exact HT|]]].
  - unfold inputs_at, ins. cbn [fi_ext fi_oe fi_dmi fi_res fi_K fi_Jb fi_Jt fi_J2b fi_J2t fi_Db fi_Dt].
    repeat split; first [apply (tame_axial_ok T); assumption|apply (tame_ok T); assumption].
  - change (H_eff l (ins l t) v b w (dipole_total l b w) Zero) with (field l (PT t v b w)). unfold derivative. cbn [pt_t pt_v pt_b pt_w].
    destruct (l_includeSTT l) eqn:E1.
    + destruct (STT eq_refl) as [HC (e & He & HE)]. apply llg_stt; try assumption; [apply (tame_ok T); assumption|].
      intros Z. specialize (HE v b w Hv Hb Hw). rewrite Z, Rabs_R0 in HE. lra.
    + specialize (SOT eq_refl). destruct (l_includeSOT l) eqn:E2; [|apply llg_plain; assumption]. specialize (SOT eq_refl). destruct (l_dynamicSOT l) eqn:E3.
      * destruct SOT as [S1 S2]. apply llg_sot_dynamic; try assumption; apply (tame_ok T); assumption.
      * apply llg_sot_static; try assumption. apply (tame_ok T); assumption.
Qed.

(** ** Radial projection onto the unit ball *)
Definition ball (v : cvec) : cvec := Scal (/ Rmax 1 (Norm v)) v.
Lemma ball_factor v : 0 < / Rmax 1 (Norm v).
Proof. apply Rinv_0_lt_compat. pose proof (Rmax_l 1 (Norm v)). lra. Qed.
Lemma ball_small v : Norm (ball v) <= 1.
Proof.
  unfold ball. rewrite Norm_scal, Rabs_pos_eq by (left; apply ball_factor). pose proof (Rmax_l 1 (Norm v)). pose proof (Rmax_r 1 (Norm v)).
  apply (Rmult_le_reg_l (Rmax 1 (Norm v))); [lra|]. rewrite <- Rmult_assoc, Rinv_r by lra. lra.
Qed.
Lemma ball_unit v : Unit v -> ball v = v.
Proof. intros U. unfold ball. rewrite (Norm_unit v U), Rmax_left by lra. rewrite Rinv_1. destruct v as [x y z]. unfold Scal. apply vec_eq; cbn; ring. Qed.
Lemma ball_dot v d : Dot (ball v) d = 0 -> Dot v d = 0.
Proof. unfold ball. rewrite Dot_Scal_l. intros H. pose proof (ball_factor v). apply Rmult_integral in H. destruct H; lra. Qed.
Lemma Norm_diff a b : Rabs (Norm a - Norm b) <= Distance a b.
Proof.
  assert (DN : forall v, Distance v Zero = Norm v) by (intros v; unfold Distance; f_equal; rewrite Minus_def; destruct v as [x y z]; unfold Zero; cbn [cx cy cz]; apply vec_eq; ring).
  pose proof (Distance_triangle a b Zero) as T1. pose proof (Distance_triangle b a Zero) as T2. rewrite !DN in *. rewrite (Distance_sym b a) in T2. apply Rabs_le. lra.
Qed.
Lemma ball_lip v w : Distance (ball v) (ball w) <= 2 * Distance v w.
Proof.
  set (a := Rmax 1 (Norm v)). set (b := Rmax 1 (Norm w)). pose proof (Rmax_l 1 (Norm v)) as A1. pose proof (Rmax_l 1 (Norm w)) as B1. pose proof (Rmax_r 1 (Norm w)) as B2. fold a in A1. fold b in B1, B2.
  assert (AB : Rabs (b - a) <= Distance v w).
  { pose proof (Norm_diff v w) as H. unfold a, b, Rmax. repeat destruct (Rle_dec _ _); unfold Rabs in *; repeat destruct (Rcase_abs _); pose proof (Distance_nonneg v w); lra. }
  assert (E : Minus (ball v) (ball w) = Plus (Scal (/ a) (Minus v w)) (Scal (/ a * / b * (b - a)) w)).
  { unfold ball. fold a b. rewrite !Minus_def. destruct v as [v1 v2 v3], w as [w1 w2 w3]. unfold Scal, Plus. cbn [cx cy cz]. apply vec_eq; field; lra. }
  unfold Distance at 1. rewrite E. apply Rle_trans with (1 := P_PimmProps.Norm_triangle _ _). rewrite !Norm_scal. fold (Distance v w).
  assert (IA : 0 < / a <= 1) by (split; [apply Rinv_0_lt_compat; lra|rewrite <- Rinv_1; apply Rinv_le_contravar; lra]).
  assert (IB : 0 < / b) by (apply Rinv_0_lt_compat; lra). rewrite !Rabs_mult, (Rabs_pos_eq (/ a)), (Rabs_pos_eq (/ b)) by lra.
  assert (WB : / b * Norm w <= 1) by (apply (Rmult_le_reg_l b); [lra|]; rewrite <- Rmult_assoc, Rinv_r by lra; lra).
  pose proof (Norm_nonneg w). pose proof (Distance_nonneg v w). pose proof (Rabs_pos (b - a)). assert (0 <= / b * Norm w) by (apply Rmult_le_pos; lra).
  assert (/ a * Distance v w <= 1 * Distance v w) by (apply Rmult_le_compat_r; lra).
  replace (/ a * / b * Rabs (b - a) * Norm w) with ((/ a * (/ b * Norm w)) * Rabs (b - a)) by ring.
  assert (/ a * (/ b * Norm w) <= 1 * 1) by (apply Rmult_le_compat; lra). assert (0 <= / a * (/ b * Norm w)) by (apply Rmult_le_pos; lra). nra.
Qed.

(** ** Coordinates *)
Definition co (c : nat) (v : cvec) : R := match c with 0%nat => cx v | 1%nat => cy v | _ => cz v end.
Definition vec (x : nat * nat -> R) (p : nat) : cvec := CV (x (p, 0%nat)) (x (p, 1%nat)) (x (p, 2%nat)).
Definition block (p : nat) : list (nat * nat) := [(p, 0%nat); (p, 1%nat); (p, 2%nat)].
Definition coords (n : nat) : list (nat * nat) := flat_map block (seq 0 n).
Lemma co_le c d : Rabs (co c d) <= Norm d.
Proof. pose proof (coord_le d) as (A & B & C). destruct c as [|[|c]]; assumption. Qed.
Lemma co_dist c a b : Rabs (co c a - co c b) <= Distance a b.
Proof. pose proof (coord_dist a b) as (A & B & C). destruct c as [|[|c]]; assumption. Qed.
Lemma vec_dist n x y p : (p < n)%nat -> Distance (vec x p) (vec y p) <= apart (coords n) x y.
Proof.
  intros Hp. apply Rle_trans with (Rabs (x (p, 0%nat) - y (p, 0%nat)) + Rabs (x (p, 1%nat) - y (p, 1%nat)) + Rabs (x (p, 2%nat) - y (p, 2%nat))).
  - unfold Distance. pose proof (Norm_le_coords (Minus (vec x p) (vec y p))) as H. rewrite Minus_def in H at 2 3 4. exact H.
  - assert (Hs : In p (seq 0 n)) by (apply in_seq; lia). unfold apart, coords. clear Hp. induction (seq 0 n) as [|q l IH]; [contradiction|]. cbn [flat_map block app fold_right].
    assert (P : 0 <= apart (flat_map block l) x y) by apply apart_nonneg. unfold apart in P.
    pose proof (Rabs_pos (x (q, 0%nat) - y (q, 0%nat))). pose proof (Rabs_pos (x (q, 1%nat) - y (q, 1%nat))). pose proof (Rabs_pos (x (q, 2%nat) - y (q, 2%nat))).
    destruct Hs as [->|Hs]; [lra|]. specialize (IH Hs). lra.
Qed.

Section Stack.
Context (ls : list layer) (T : R) (HT : 0 <= T) (HS : forall l, In l ls -> sound_layer T l).
Let n := length ls.
Definition under (x : nat -> cvec) (p : nat) : cvec := match p with O => Zero | S k => ball (x k) end.
Definition over (x : nat -> cvec) (p : nat) : cvec := if (S p <? length ls)%nat then ball (x (S p)) else Zero.
Definition place (t : R) (x : nat * nat -> R) (p : nat) : pt := PT (cl T t) (ball (vec x p)) (under (vec x) p) (over (vec x) p).
Definition flow (i : nat * nat) (t : R) (x : nat * nat -> R) : R :=
  match nth_error ls (fst i) with Some l => co (snd i) (derivative l (place t x (fst i))) | None => 0 end.
Lemma place_dom t x p : dom T (place t x p).
Proof.
  unfold dom, place. cbn [pt_t pt_v pt_b pt_w]. split; [apply cl_in; exact HT|]. pose proof zero_small. split; [pose proof (ball_small (vec x p)); lra|].
  split; [destruct p; cbn [under]; [assumption|pose proof (ball_small (vec x p)); lra]|]. unfold over. destruct (_ <? _)%nat; [|assumption]. pose proof (ball_small (vec x (S p))); lra.
Qed.
Lemma flow_regular : exists M L, 0 <= M /\ 0 <= L /\ (forall i t x, Rabs (flow i t x) <= M) /\
  (forall i t t' x y, Rabs (flow i t x - flow i t' y) <= L * (Rabs (t - t') + apart (coords n) x y)).
Proof.
  destruct (tame_layers T ls (fun l Hl => proj1 (HS l Hl))) as (M & L & HM & HL & HR). exists M, (6 * L). split; [exact HM|]. split; [lra|]. split.
  - intros [p c] t x. unfold flow. cbn [fst snd]. destruct (nth_error ls p) as [l|] eqn:Q; [|rewrite Rabs_R0; exact HM]. pose proof (nth_error_In _ _ Q) as Hl.
    pose proof (place_dom t x p) as D. destruct D as (D1 & D2 & D3 & D4). apply Rle_trans with (1 := co_le c _). apply (HR l Hl _ _ _ _ _ D1 D2 D3 D4). apply (sound_rhs T); [apply HS; exact Hl|apply place_dom].
  - intros [p c] t t' x y. unfold flow. cbn [fst snd]. pose proof (apart_nonneg (coords n) x y) as AP. pose proof (Rabs_pos (t - t')) as TP.
    destruct (nth_error ls p) as [l|] eqn:Q; [|rewrite Rminus_diag_eq, Rabs_R0 by reflexivity; apply Rmult_le_pos; lra]. pose proof (nth_error_In _ _ Q) as Hl.
    assert (Hp : (p < n)%nat) by (apply nth_error_Some; congruence).
    destruct (place_dom t x p) as (D1 & D2 & D3 & D4), (place_dom t' y p) as (E1 & E2 & E3 & E4). apply Rle_trans with (1 := co_dist c _ _).
    destruct (HR l Hl _ _ _ _ _ D1 D2 D3 D4 (sound_rhs T l _ _ _ _ (HS l Hl) (place_dom t x p))) as [_ G].
    apply Rle_trans with (1 := G _ _ _ _ _ E1 E2 E3 E4 (sound_rhs T l _ _ _ _ (HS l Hl) (place_dom t' y p))). unfold place. cbn [pt_t pt_v pt_b pt_w].
    replace (6 * L * (Rabs (t - t') + apart (coords n) x y)) with (L * (6 * (Rabs (t - t') + apart (coords n) x y))) by ring. apply Rmult_le_compat_l; [exact HL|].
    pose proof (cl_lip T HT t t') as C. assert (BD : forall q, (q < n)%nat -> Distance (ball (vec x q)) (ball (vec y q)) <= 2 * apart (coords n) x y).
    { intros q Hq. apply Rle_trans with (1 := ball_lip _ _). pose proof (vec_dist n x y q Hq). lra. }
    pose proof (BD p Hp) as B1. assert (B2 : Distance (under (vec x) p) (under (vec y) p) <= 2 * apart (coords n) x y) by (destruct p; cbn; [rewrite Distance_refl; lra|apply BD; lia]).
    assert (B3 : Distance (over (vec x) p) (over (vec y) p) <= 2 * apart (coords n) x y).
    { unfold over. destruct (Nat.ltb_spec (S p) (length ls)); [apply BD; assumption|rewrite Distance_refl; lra]. }
    lra.
Qed.
Lemma coords_in p c : (p < n)%nat -> (c < 3)%nat -> In (p, c) (coords n).
Proof. intros Hp Hc. apply in_flat_map. exists p. split; [apply in_seq; lia|]. destruct c as [|[|[|c]]]; cbn; auto. lia. Qed.
Lemma coords_out i : In i (coords n) -> (fst i < n)%nat /\ (snd i < 3)%nat.
Proof. intros H. apply in_flat_map in H. destruct H as (p & Hp & Hi). apply in_seq in Hp. cbn in Hi. destruct Hi as [<-|[<-|[<-|[]]]]; cbn; lia. Qed.

Lemma motion_exists : (forall l, In l ls -> Unit (l_mag l)) -> exists u du, solves ls T u du /\ starts ls u.
Proof.
  intros HU. destruct flow_regular as (M & L & HM & HL & HB & HLip).
  set (x0 := fun i : nat * nat => match nth_error ls (fst i) with Some l => co (snd i) (l_mag l) | None => 0 end).
  destruct (picard (coords n) flow T M L HT HM HL HB HLip x0) as (w & Hw). set (u := fun p t => vec (fun i => w i t) p).
  set (du := fun p t => vec (fun i => flow i t (fun j => w j t)) p).
  assert (ST : starts ls u). { intros p l Hp. unfold u, vec. rewrite !(proj1 (Hw _)). unfold x0. cbn [fst snd]. rewrite Hp. destruct (l_mag l); reflexivity. }
  assert (VD : forall p t, 0 <= t <= T -> vderiv (u p) t (du p t)).
  { intros p t Ht. split; [|split]; cbn; apply Hw; exact Ht. }
  assert (DU : forall p l t, nth_error ls p = Some l -> du p t = derivative l (place t (fun j => w j t) p)).
  { intros p l t Hp. unfold du, vec, flow. cbn [fst snd]. rewrite Hp. destruct (derivative l (place t (fun j => w j t) p)); reflexivity. }
  assert (UN : forall p l t, nth_error ls p = Some l -> 0 <= t <= T -> Unit (u p t)).
  { intros p l t Hp Ht. assert (U0 : Unit (u p 0)) by (rewrite (ST p l Hp); apply HU; exact (nth_error_In _ _ Hp)).
    destruct (Rle_lt_or_eq_dec 0 t (proj1 Ht)) as [P|<-]; [|exact U0].
    destruct (MVT_cor2 (fun s => Norm2 (u p s)) (fun s => 2 * Dot (u p s) (du p s)) 0 t P) as (c & E & Ic).
    - intros c Ic. apply vderiv_norm2. apply VD. lra.
    - assert (Z : Dot (u p c) (du p c) = 0).
      { apply ball_dot. rewrite (DU p l c Hp). pose proof (sound_rhs T l _ _ _ _ (HS l (nth_error_In _ _ Hp)) (place_dom c (fun j => w j c) p)) as (i & _ & _ & _ & F). apply llg_spec_tangent in F. exact F. }
      cbv beta in E. rewrite Z in E. unfold Unit in *. lra. }
  exists u, du. split; [|exact ST]. intros p l t Hp Ht. split; [|apply VD; exact Ht]. rewrite (DU p l t Hp). pose proof (place_dom t (fun j => w j t) p) as PD.
  assert (HPn : (p < n)%nat) by (apply nth_error_Some; congruence).
  assert (BU : forall q, (q < n)%nat -> ball (u q t) = u q t).
  { intros q Hq. apply ball_unit. destruct (nth_error ls q) as [lq|] eqn:Q; [|apply nth_error_None in Q; unfold n in Hq; lia]. exact (UN q lq t Q Ht). }
  assert (EP : place t (fun j => w j t) p = PT t (u p t) (below (snapshot u (length ls) t) p) (above (snapshot u (length ls) t) p)).
  { unfold place. rewrite (cl_id T t Ht). rewrite snapshot_below, snapshot_above by exact HPn. f_equal.
    - exact (BU p HPn).
    - destruct p as [|k]; [reflexivity|]. cbn. exact (BU k ltac:(lia)).
    - unfold over. destruct (Nat.ltb_spec (S p) (length ls)) as [H|H]; [|reflexivity]. exact (BU (S p) H). }
  rewrite EP in *. apply (sound_rhs T); [apply HS; exact (nth_error_In _ _ Hp)|exact PD].
Qed.
Lemma motion_unique u du v dv : solves ls T u du -> solves ls T v dv -> (forall p l, nth_error ls p = Some l -> Unit (u p 0) /\ v p 0 = u p 0) ->
  forall p l t, nth_error ls p = Some l -> 0 <= t <= T -> v p t = u p t.
Proof.
  intros SU SV H0. destruct flow_regular as (M & L & HM & HL & HB & HLip).
  assert (CH : forall f df, solves ls T f df -> (forall p l, nth_error ls p = Some l -> Unit (f p 0)) -> forall i t, In i (coords n) -> 0 <= t <= T ->
     derivable_pt_lim (fun s => co (snd i) (f (fst i) s)) t (co (snd i) (df (fst i) t)) /\ co (snd i) (df (fst i) t) = flow i t (fun k => co (snd k) (f (fst k) t))).
  { intros f df SF UF [p c] t Hi Ht. apply coords_out in Hi. cbn [fst snd] in *. destruct Hi as [Hp Hc].
    destruct (nth_error ls p) as [l|] eqn:Q; [|apply nth_error_None in Q; unfold n in Hp; lia]. destruct (SF p l t Q Ht) as [R1 (X & Y & Z)]. split.
    - destruct c as [|[|c]]; assumption.
    - unfold flow. cbn [fst snd]. rewrite Q. f_equal. rewrite (derivative_ok _ _ _ _ _ _ R1). f_equal. unfold place. rewrite (cl_id T t Ht).
      assert (VE : forall q, vec (fun k => co (snd k) (f (fst k) t)) q = f q t) by (intros q; unfold vec; cbn; destruct (f q t); reflexivity).
      assert (BU : forall q, (q < n)%nat -> ball (vec (fun k => co (snd k) (f (fst k) t)) q) = f q t).
      { intros q Hq. rewrite VE. apply ball_unit. destruct (nth_error ls q) as [lq|] eqn:Q2; [|apply nth_error_None in Q2; unfold n in Hq; lia]. exact (solution_unit ls T f df SF UF q lq t Q2 Ht). }
      rewrite snapshot_below, snapshot_above by exact Hp. f_equal.
      + symmetry. exact (BU p Hp).
      + destruct p as [|k]; [reflexivity|]. cbn. symmetry. exact (BU k ltac:(lia)).
      + unfold over. destruct (Nat.ltb_spec (S p) (length ls)) as [H|H]; [|reflexivity]. symmetry. exact (BU (S p) H). }
  assert (UU : forall p l, nth_error ls p = Some l -> Unit (u p 0)) by (intros p l Hp; apply (H0 p l Hp)).
  assert (UV : forall p l, nth_error ls p = Some l -> Unit (v p 0)) by (intros p l Hp; destruct (H0 p l Hp) as [A ->]; exact A).
  pose proof (picard_unique (coords n) flow T L HL HLip (fun i s => co (snd i) (v (fst i) s)) (fun i s => co (snd i) (u (fst i) s)) (fun i s => co (snd i) (dv (fst i) s)) (fun i s => co (snd i) (du (fst i) s)) (CH v dv SV UV) (CH u du SU UU)) as PU.
  intros p l t Hp Ht. assert (HPn : (p < n)%nat) by (apply nth_error_Some; congruence).
  assert (G : forall c, (c < 3)%nat -> co c (v p t) = co c (u p t)).
  { intros c Hc. apply (PU ltac:(intros [q d] Hq; cbn; apply coords_out in Hq; cbn in Hq; destruct (nth_error ls q) as [lq|] eqn:Q; [rewrite (proj2 (H0 q lq Q)); reflexivity|apply nth_error_None in Q; unfold n in Hq; lia]) t Ht (p, c)). apply coords_in; assumption. }
  pose proof (G 0%nat ltac:(lia)) as G0. pose proof (G 1%nat ltac:(lia)) as G1. pose proof (G 2%nat ltac:(lia)) as G2. cbn in G0, G1, G2. destruct (v p t), (u p t). cbn in *. congruence.
Qed.
End Stack.

(** ** Consequences *)
Lemma motion_of ls T : 0 <= T -> (forall l, In l ls -> sound_layer T l /\ Unit (l_mag l)) -> exists u, motion ls T u.
Proof.
  intros HT H. destruct (motion_exists ls T HT (fun l Hl => proj1 (H l Hl)) (fun l Hl => proj2 (H l Hl))) as (u & du & S & St).
  exists u. split; [exact St|]. split; [exists du; exact S|]. intros v dv Sv Hv. apply (motion_unique ls T HT (fun l Hl => proj1 (H l Hl)) u du v dv S Hv).
  intros p l Hp. rewrite (St p l Hp), (Sv p l Hp). split; [apply H; exact (nth_error_In _ _ Hp)|reflexivity].
Qed.
Lemma motion_iff ls T : 0 <= T -> (forall l, In l ls -> tame_layer T l /\ Unit (l_mag l)) ->
  ((exists u, motion ls T u) <-> forall l, In l ls -> l_Ms l <> 0 /\ l_thickness l <> 0).
Proof.
  intros HT H. split.
  - intros (u & _ & (du & S) & _) l Hl. apply In_nth_error in Hl. destruct Hl as [p Hp]. destruct (S p l 0 Hp ltac:(lra)) as [(i & _ & A & B & _) _]. split; assumption.
  - intros HM. apply motion_of; [exact HT|]. intros l Hl. destruct (H l Hl) as [A B], (HM l Hl) as [C D]. split; [split; [exact A|split; assumption]|exact B].
Qed.
Lemma motion_limit T j : 0 <= T -> (forall l, In l (j_layers j) -> sound_layer T l /\ quiet l /\ Unit (l_mag l)) ->
  exists u, motion (j_layers j) T u /\ (forall p l t, nth_error (j_layers j) p = Some l -> 0 <= t <= T -> Unit (u p t)) /\
  forall eps, 0 < eps -> exists delta, 0 < delta /\ forall dt wf e mode j', 0 < dt < delta -> runSimulation T dt wf e mode j = (j', Ok tt) ->
    length (j_layers j') = length (j_layers j) /\
    (forall p l', nth_error (j_layers j') p = Some l' -> Distance (l_mag l') (u p T) < eps) /\
    (named j -> exists N w, step_counts T dt wf N w /\
       col "time" (j_log j') = (col "time" (j_log j) ++ map (fun k => INR (k * w) * dt) (seq 0 (rows_needed N w)))%list /\
       forall p l, nth_error (j_layers j) p = Some l -> exists vs, length vs = rows_needed N w /\
         col (colname (l_id l) "mx") (j_log j') = (col (colname (l_id l) "mx") (j_log j) ++ map cx vs)%list /\
         col (colname (l_id l) "my") (j_log j') = (col (colname (l_id l) "my") (j_log j) ++ map cy vs)%list /\
         col (colname (l_id l) "mz") (j_log j') = (col (colname (l_id l) "mz") (j_log j) ++ map cz vs)%list /\
         forall k v, nth_error vs k = Some v -> Distance v (u p (INR (k * w) * dt)) < eps).
Proof.
  intros HT H. destruct (motion_of (j_layers j) T HT) as (u & Mu); [intros l Hl; destruct (H l Hl) as (A & _ & B); split; assumption|].
  exists u. split; [exact Mu|]. destruct Mu as (St & (du & S) & _).
  assert (FS : fine_start T (j_layers j)) by (intros l Hl; destruct (H l Hl) as ((A & _) & B & C); auto). split.
  - intros p l t Hp Ht. apply (solution_unit _ _ _ _ S) with (l := l); try assumption. intros q lq Hq. rewrite (St q lq Hq). apply FS. exact (nth_error_In _ _ Hq).
  - intros eps He. destruct (run_limit T j u du HT FS S St eps He) as (delta & HD & G). exists delta. split; [exact HD|]. intros dt wf e mode j' Hdt E.
    destruct (G dt wf e mode j' Hdt E) as [G1 G2]. split; [apply (run_layers _ _ _ _ _ _ _ (fun l Hl => proj1 (proj2 (FS l Hl))) E)|]. split; [exact G1|].
    intros HN. destruct (G2 HN) as (N & w & X & _ & Y & Z). exists N, w. auto.
Qed.
(** Simulations of one stack agree with each other. *)
Lemma runs_agree T j : 0 <= T -> (forall l, In l (j_layers j) -> sound_layer T l /\ quiet l /\ Unit (l_mag l)) ->
  forall eps, 0 < eps -> exists delta, 0 < delta /\ forall dt1 wf1 e1 mode1 j1 dt2 wf2 e2 mode2 j2, 0 < dt1 < delta -> 0 < dt2 < delta ->
    runSimulation T dt1 wf1 e1 mode1 j = (j1, Ok tt) -> runSimulation T dt2 wf2 e2 mode2 j = (j2, Ok tt) ->
    forall p l1 l2, nth_error (j_layers j1) p = Some l1 -> nth_error (j_layers j2) p = Some l2 -> Distance (l_mag l1) (l_mag l2) < eps.
Proof.
  intros HT H eps He. destruct (motion_limit T j HT H) as (u & _ & _ & G). destruct (G (eps / 2) ltac:(lra)) as (delta & HD & G').
  exists delta. split; [exact HD|]. intros dt1 wf1 e1 mode1 j1 dt2 wf2 e2 mode2 j2 H1 H2 E1 E2 p l1 l2 P1 P2.
  destruct (G' _ _ _ _ _ H1 E1) as (_ & D1 & _), (G' _ _ _ _ _ H2 E2) as (_ & D2 & _). specialize (D1 p l1 P1). specialize (D2 p l2 P2). rewrite Distance_sym in D2.
  pose proof (Distance_triangle (l_mag l1) (u p T) (l_mag l2)). lra.
Qed.
(** Energy. *)
Lemma conservative_sound T l i : conservative_layer l i -> sound_layer T l.
Proof. intros H. split; [exact (conservative_tame T l i H)|]. destruct H as (_ & _ & _ & A & B & _). split; assumption. Qed.
Lemma runs_energy ls T j : 0 <= T -> conservative ls -> j_layers j = layers ls -> (forall l, In l (j_layers j) -> quiet l /\ Unit (l_mag l)) ->
  forall eps, 0 < eps -> exists delta, 0 < delta /\ forall dt wf e mode j', 0 < dt < delta -> runSimulation T dt wf e mode j = (j', Ok tt) ->
    ((forall l i, In (l, i) ls -> 0 <= moment l /\ 0 <= l_damping l) -> stack_energy ls (mags (j_layers j')) < stack_energy ls (mags (j_layers j)) + eps) /\
    ((forall l i, In (l, i) ls -> l_damping l = 0) -> Rabs (stack_energy ls (mags (j_layers j')) - stack_energy ls (mags (j_layers j))) < eps).
Proof.
  intros HT HC HJ HQ. destruct (motion_of (layers ls) T HT) as (u & St & (du & S) & _).
  - intros l Hl. split; [|apply HQ; rewrite HJ; exact Hl]. unfold layers in Hl. apply in_map_iff in Hl. destruct Hl as ([l0 i0] & <- & Hi). apply (conservative_sound T l0 i0). apply (proj1 HC). exact Hi.
  - exact (simulated_energy ls T j u du HT HC HJ HQ S St).
Qed.
