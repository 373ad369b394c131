(** C39-C41: noise generators. *)
From Verif Require Import P_NoiseVec.
Open Scope R_scope.

(** ** C39 *)
(** Tick k of a generator with buffers of n samples returns entry k mod n of the buffer filled from
    the draws of block k / n; the draws taken so far are those of the blocks begun. *)
Theorem c39_ticks : forall n alpha scale g b K, mkBuffered n alpha scale g = Ok b -> exists b',
  calls buffered_tick K b = (b', Ok (map (fun k => scale * coloured_sample n alpha g k) (seq 0 K))) /\
  b_counter b' = (K mod n)%nat /\ b_gpos b' = ((K / n + (if Nat.eqb (K mod n) 0 then 0 else 1)) * n)%nat /\
  ((0 < K)%nat -> getFullBuffer b' = map (fun i => coloured_sample n alpha g ((K - 1) / n * n + i)) (seq 0 n)).
Proof.
  intros n alpha scale g b K E. eexists. split; [exact (buffered_calls n alpha scale g b K E)|]. split; [reflexivity|]. split; [reflexivity|].
  intros HK. destruct K as [|K]; [lia|]. cbn [buffered_after getFullBuffer b_result]. replace (S K - 1)%nat with K by lia. reflexivity.
Qed.
Theorem c39_constructor : forall n alpha scale g b, mkBuffered n alpha scale g = Ok b <->
  (0 < n)%nat /\ b = BN n scale (map (fun i => (filter_weight alpha i, 0)) (seq 0 n) ++ repeat (0, 0) n) (repeat 0 n) 0 g 0.
Proof. exact mkBuffered_iff. Qed.
(** The entries: the draws filtered with the weights of 1/f^alpha, minus what the halved line N-1 and
    the dropped line N of the spectrum carried. *)
Theorem c39_entries : forall N alpha w i, (2 <= N)%nat -> (i < N)%nat -> buffer_entry N alpha w i =
  convolution (filter_weight alpha) w i -
  Rsum (fun a => Rsum (fun b => filter_weight alpha a * w b * leak N (Z.of_nat i - Z.of_nat a - Z.of_nat b)) N) N.
Proof. exact buffer_convolution. Qed.
Theorem c39_single : forall alpha w, buffer_entry 1 alpha w 0 = w 0%nat / 4.
Proof. exact buffer_single. Qed.
(** So with alpha = 0 the samples are not the white draws. *)
Theorem c39_white_refuted : exists w, buffer_entry 2 0 w 0 <> w 0%nat.
Proof. exists (fun k => match k with O => 1 | _ => 0 end). rewrite white_two. lra. Qed.
Theorem c39_weights : forall alpha i, (0 < alpha -> 0 < filter_weight alpha i) /\
  (0 < alpha <= 2 -> filter_weight alpha (S i) <= filter_weight alpha i) /\ filter_weight 0 (S i) = 0 /\ filter_weight 2 i = 1.
Proof.
  intros alpha i. split; [apply weight_pos|]. split; [apply weight_decreasing|]. split; [apply weight_white|apply weight_brown].
Qed.
Example c39_ex : exists b, mkBuffered 3 1 2 (fun k => INR k) = Ok b.
Proof. eexists. reflexivity. Qed.

(** ** C40 *)
Theorem c40_pink_samples : forall M rand n, exists k', calls (pink_tick M) n (mkPink rand) = (k', Ok (map (pink_sample M rand) (seq 0 n))).
Proof. intros M rand n. eexists. apply pink_calls. Qed.
Theorem c40_pink_tick : forall M k k' x, pink_tick M k = (k', Ok x) <->
  k' = PK (3190 / 10000 * pk0 k + 6810 / 10000 * pk_rand k (pk_pos k))
          (7756 / 10000 * pk1 k + 2244 / 10000 * pk_rand k (pk_pos k + 1))
          (9613 / 10000 * pk2 k + 387 / 10000 * pk_rand k (pk_pos k + 2)) (pk_rand k) (pk_pos k + 3) /\
  x = 2 / M * (2109238 / 100000000 * pk0 k' + 7113478 / 100000000 * pk1 k' + 68873558 / 100000000 * pk2 k') - 78096274 / 100000000.
Proof. exact pink_tick_iff. Qed.
Theorem c40_pink_clear : forall k k' x, pink_clear k = (k', x) <-> x = Ok tt /\ k' = PK 0 0 0 (pk_rand k) (pk_pos k).
Proof. exact pink_clear_iff. Qed.
Theorem c40_pink_bounded : forall M rand n k' xs x, 0 < M -> (forall j, 0 <= rand j <= M) ->
  calls (pink_tick M) n (mkPink rand) = (k', Ok xs) -> In x xs -> - (78096274 / 100000000) <= x <= 78096274 / 100000000.
Proof.
  intros M rand n k' xs x HM Hr E Hx. rewrite pink_calls in E. injection E as <- <-. apply in_map_iff in Hx. destruct Hx as (k & <- & _).
  apply pink_bound; assumption.
Qed.
(** The generator starts in a corner: its first sample is at most -0.66. *)
Theorem c40_pink_centred_refuted : forall M rand, 0 < M -> (forall j, 0 <= rand j <= M) ->
  exists k' x, pink_tick M (mkPink rand) = (k', Ok x) /\ x <= - (66 / 100).
Proof.
  intros M rand HM Hr. do 2 eexists. split; [exact (pink_after_tick M rand 0)|]. apply pink_first; assumption.
Qed.
Theorem c40_onef_constructor : forall n scale u g o, mkOneF n scale u g = Ok o <->
  (0 <= n)%Z /\ o = OF (Z.to_nat n) (map u (seq 0 (Z.to_nat n))) scale u (Z.to_nat n) g 0.
Proof. exact mkOneF_iff. Qed.
(** A tick redraws each source named by a trial once, in rising order. *)
Theorem c40_onef_tick : forall o o' x, length (o_state o) = o_sources o -> (onef_tick o = (o', Ok x) <->
  exists cells, picked (o_sources o) (trials_of o) cells /\ onef_moved o o' cells /\
    refreshed (fun i => o_unif o (o_upos o + i)%nat) cells (o_state o) (o_state o') /\ x = o_scale o * total (o_state o')).
Proof. exact onef_tick_iff. Qed.
(** The other tick redraws it once per trial. *)
Theorem c40_onef_tick2 : forall o o' x, length (o_state o) = o_sources o -> onef_tick2 o = (o', Ok x) ->
  let cells := filter (fun t => Nat.ltb t (o_sources o)) (trials_of o) in
  onef_moved o o' cells /\ revisited (fun i => o_unif o (o_upos o + i)%nat) cells (o_state o) (o_state o') /\ x = o_scale o * total (o_state o').
Proof. exact onef_tick2_sound. Qed.
Theorem c40_onef_total : forall o, exists o1 x1 o2 x2, onef_tick o = (o1, Ok x1) /\ onef_tick2 o = (o2, Ok x2).
Proof. exact onef_total. Qed.
Theorem c40_onef_bounded : forall n scale u g o xs o' x, 0 <= scale -> (forall i, 0 <= u i <= 1) -> mkOneF n scale u g = Ok o ->
  onef_reach o xs o' -> In x xs -> 0 <= x <= IZR n * scale.
Proof.
  intros n scale u g o xs o' x Hs Hu E Hr Hx. pose proof (mkOneF_unit n scale u g o Hu E) as I. apply mkOneF_iff in E. destruct E as [Hn ->].
  pose proof (onef_run_bound _ xs o' I Hs Hr x Hx) as B. cbn [o_sources o_scale] in B. rewrite INR_IZR_INZ, Z2Nat.id in B by exact Hn. exact B.
Qed.
Example c40_ex : exists o, mkOneF 4 1 (fun k => / INR (S k)) (fun k => k) = Ok o /\ (forall i, 0 <= / INR (S i) <= 1) /\ 0 <= 1 /\
  exists o' x, onef_tick o = (o', Ok x).
Proof.
  eexists. split; [reflexivity|]. split.
  - intros i. pose proof (pos_INR i). rewrite S_INR. split; [left; apply Rinv_0_lt_compat; lra|].
    rewrite <- Rinv_1. apply Rinv_le_contravar; lra.
  - split; [lra|]. do 2 eexists. reflexivity.
Qed.
Example c40_pink_ex : 0 < 32767 /\ forall j : nat, 0 <= 7 <= 32767.
Proof. split; [lra|intros; lra]. Qed.

(** ** C41 *)
Theorem c41_constructor : forall n alpha scale a gx gy gz, (exists v, mkVectorNoise n alpha scale a gx gy gz = Ok v) <->
  a <> none_axis /\ (0 < n)%nat.
Proof.
  intros n alpha scale a gx gy gz. split; [intros [v E]; apply mkVector_iff in E; tauto|intros [A H]; apply vector_total; assumption].
Qed.
Theorem c41_none_raises : forall n alpha scale gx gy gz, exists msg, mkVectorNoise n alpha scale none_axis gx gy gz = Err (Throw msg).
Proof. exact mkVector_none. Qed.
(** Any sequence of tickVector and tick: the vector call number i uses sample i of x and the sample of
    y and z numbered by the vector calls before it; the scalar call reads x only. *)
Theorem c41_calls : forall n alpha scale a gx gy gz v ops, mkVectorNoise n alpha scale a gx gy gz = Ok v ->
  exists v' outs, noise_calls ops v = (v', Ok outs) /\ length outs = length ops /\
  (forall i, nth_error ops i = Some true -> exists c, nth_error outs i = Some (inl (Scal scale c)) /\
     axis_sample a (coloured_sample n alpha gx i) (coloured_sample n alpha gy (count_true (firstn i ops))) (coloured_sample n alpha gz (count_true (firstn i ops))) c) /\
  (forall i, nth_error ops i = Some false -> exists x, nth_error outs i = Some (inr x) /\
     (has_x a -> x = scale * coloured_sample n alpha gx i) /\ (~ has_x a -> x = 0)).
Proof. exact vector_calls. Qed.
Theorem c41_shape : forall a x y z c scale, axis_sample a x y z c ->
  match a with
  | xaxis => cy (Scal scale c) = 0 /\ cz (Scal scale c) = 0
  | yaxis => cx (Scal scale c) = 0 /\ cz (Scal scale c) = 0
  | zaxis => cx (Scal scale c) = 0 /\ cy (Scal scale c) = 0
  | _ => Norm (Scal scale c) = Rabs scale \/ Scal scale c = Zero
  end.
Proof. exact sample_shape. Qed.
Theorem c41_previous : forall n alpha scale a gx gy gz v v' outs K, mkVectorNoise n alpha scale a gx gy gz = Ok v ->
  calls noise_tickVector K v = (v', Ok outs) ->
  getScale v' = scale /\ ((K < 2)%nat -> getPrevSample v' = Zero) /\
  ((2 <= K)%nat -> nth_error outs (K - 2) = Some (Scal scale (getPrevSample v'))).
Proof. exact remembered. Qed.
(** The noise source inside a layer is this generator. *)
Theorem c41_layer_source : forall n alpha scale a gx gy gz v, mkVectorNoise n alpha scale a gx gy gz = Ok v ->
  let raw k := CV (coloured_sample n alpha gx k) (coloured_sample n alpha gy k) (coloured_sample n alpha gz k) in
  forall K, exists v' outs, calls noise_tickVector K v = (v', Ok outs) /\ length outs = K /\
    (forall k, (k < K)%nat -> nth_error outs k = Some (snd (tickVector (VN a scale raw k)))) /\
    w_scale v' = scale.
Proof. exact layer_source. Qed.
Example c41_ex : exists v, mkVectorNoise 5 1 2 all_axes (fun k => INR k) (fun k => 1) (fun k => - INR k) = Ok v.
Proof. apply c41_constructor. split; [discriminate|lia]. Qed.
Print Assumptions c39_ticks.
Print Assumptions c39_constructor.
Print Assumptions c39_entries.
Print Assumptions c39_single.
Print Assumptions c39_white_refuted.
Print Assumptions c39_weights.
Print Assumptions c40_pink_samples.
Print Assumptions c40_pink_tick.
Print Assumptions c40_pink_clear.
Print Assumptions c40_pink_bounded.
Print Assumptions c40_pink_centred_refuted.
Print Assumptions c40_onef_constructor.
Print Assumptions c40_onef_tick.
Print Assumptions c40_onef_tick2.
Print Assumptions c40_onef_total.
Print Assumptions c40_onef_bounded.
Print Assumptions c41_constructor.
Print Assumptions c41_none_raises.
Print Assumptions c41_calls.
Print Assumptions c41_shape.
Print Assumptions c41_previous.
Print Assumptions c41_layer_source.
