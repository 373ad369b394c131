(** Proofs about the vector noise. *)
From Verif Require Export P_NoiseBuf.
Open Scope R_scope.
Open Scope st_scope.

Definition on_x (a : axis) : bool := match a with xaxis | all_axes => true | _ => false end.
Definition on_y (a : axis) : bool := match a with yaxis | all_axes => true | _ => false end.
Definition on_z (a : axis) : bool := match a with zaxis | all_axes => true | _ => false end.
Definition is_all (a : axis) : bool := match a with all_axes => true | _ => false end.
Definition ticker_at (has : bool) (n : nat) (alpha : R) (g : nat -> R) (k : nat) : ticker :=
  if has then Buffered (buffered_after n alpha 1 g k) else NullTicker.
Definition vector_at (a : axis) (n : nat) (alpha scale : R) (gx gy gz : nat -> R) (k m : nat) (prev cur : cvec) : vectornoise :=
  VNO scale (ticker_at (on_x a) n alpha gx k) (ticker_at (on_y a) n alpha gy m) (ticker_at (on_z a) n alpha gz m) prev cur (is_all a).
Lemma buffered_start n alpha scale g : (0 < n)%nat -> mkBuffered n alpha scale g = Ok (buffered_after n alpha scale g 0).
Proof.
  intros H. apply mkBuffered_iff. split; [exact H|]. unfold buffered_after, refills. rewrite Nat.mod_0_l, Nat.div_0_l by lia. reflexivity.
Qed.
Lemma mkVector_iff n alpha scale a gx gy gz v : mkVectorNoise n alpha scale a gx gy gz = Ok v <->
  a <> none_axis /\ (0 < n)%nat /\ v = vector_at a n alpha scale gx gy gz 0 0 Zero Zero.
Proof.
  destruct (Nat.eq_dec n 0) as [->|N].
  - unfold mkVectorNoise. rewrite mkBuffered_empty. split; [destruct a; discriminate|intros (_ & H & _); lia].
  - unfold mkVectorNoise. rewrite !buffered_start by lia. cbn [rbind]. split.
    + destruct a; intros E; try discriminate; injection E as <-; (split; [discriminate|split; [lia|reflexivity]]).
    + intros (A & _ & ->). destruct a; try reflexivity. congruence.
Qed.
Lemma mkVector_none n alpha scale gx gy gz : exists msg, mkVectorNoise n alpha scale none_axis gx gy gz = Err (Throw msg).
Proof. eexists. reflexivity. Qed.
Lemma ticker_step has n alpha g k : (0 < n)%nat ->
  ticker_tick (ticker_at has n alpha g k) = (ticker_at has n alpha g (S k), Ok (if has then coloured_sample n alpha g k else 0)).
Proof.
  intros H. destruct has; [|reflexivity]. unfold ticker_tick, ticker_at. rewrite buffered_after_tick by exact H. rewrite Rmult_1_l. reflexivity.
Qed.
Definition sample_at (a : axis) (x y z : R) : cvec :=
  let c := CV (if on_x a then x else 0) (if on_y a then y else 0) (if on_z a then z else 0) in if is_all a then vnormalize c else c.
Lemma sample_iff a x y z c : a <> none_axis -> (c = sample_at a x y z <-> axis_sample a x y z c).
Proof.
  intros A. destruct a; unfold sample_at; cbn; try reflexivity; [|congruence].
  destruct (zero_dec (CV x y z)) as [E|E].
  - rewrite E, vnormalize_zero. split; [intros ->; left; auto|intros [[_ H]|[H _]]; [exact H|contradiction]].
  - rewrite vnormalize_nonzero by exact E. split; [intros ->; right; auto|intros [[H _]|[_ H]]; [contradiction|exact H]].
Qed.
Lemma vector_step a n alpha scale gx gy gz k m prev cur : (0 < n)%nat ->
  let c := sample_at a (coloured_sample n alpha gx k) (coloured_sample n alpha gy m) (coloured_sample n alpha gz m) in
  noise_tickVector (vector_at a n alpha scale gx gy gz k m prev cur) =
  (vector_at a n alpha scale gx gy gz (S k) (S m) cur c, Ok (Scal scale c)).
Proof.
  intros H c. unfold noise_tickVector, bind, modify, tick_x, tick_y, tick_z, get, ret, vector_at.
  cbn [w_scale w_x w_y w_z w_prev w_cur w_normalized]. do 3 (rewrite ticker_step by exact H; cbn [w_scale w_x w_y w_z w_prev w_cur w_normalized]).
  rewrite vscale_Scal. reflexivity.
Qed.
Lemma scalar_step a n alpha scale gx gy gz k m prev cur : (0 < n)%nat ->
  noise_tick (vector_at a n alpha scale gx gy gz k m prev cur) =
  (vector_at a n alpha scale gx gy gz (S k) m prev cur, Ok (scale * (if on_x a then coloured_sample n alpha gx k else 0))).
Proof.
  intros H. unfold noise_tick, bind, vector_at, tick_x. cbn [w_scale w_x w_y w_z w_prev w_cur w_normalized]. rewrite ticker_step by exact H.
  unfold get, ret. cbn [w_scale w_x w_y w_z w_prev w_cur w_normalized]. rewrite Rmult_comm. reflexivity.
Qed.
Lemma noise_calls_from a n alpha scale gx gy gz ops : (0 < n)%nat -> forall k m prev cur, exists prev' cur' outs,
  noise_calls ops (vector_at a n alpha scale gx gy gz k m prev cur) =
    (vector_at a n alpha scale gx gy gz (k + length ops) (m + count_true ops) prev' cur', Ok outs) /\ length outs = length ops /\
  (forall i, nth_error ops i = Some true -> nth_error outs i = Some (inl (Scal scale (sample_at a (coloured_sample n alpha gx (k + i))
      (coloured_sample n alpha gy (m + count_true (firstn i ops))) (coloured_sample n alpha gz (m + count_true (firstn i ops))))))) /\
  (forall i, nth_error ops i = Some false -> nth_error outs i = Some (inr (scale * (if on_x a then coloured_sample n alpha gx (k + i) else 0)))).
Proof.
  intros H. induction ops as [|[|] ops IH]; intros k m prev cur; cbn [noise_calls].
  - exists prev, cur, []. cbn [length count_true filter]. rewrite !Nat.add_0_r. split; [reflexivity|]. split; [reflexivity|]. split; intros [|i]; discriminate.
  - unfold bind. rewrite (vector_step a n alpha scale gx gy gz k m prev cur H). cbn zeta.
    match goal with |- context [noise_calls ops (vector_at _ _ _ _ _ _ _ _ _ ?p ?c)] => destruct (IH (S k) (S m) p c) as (prev' & cur' & outs & E & L & T & F) end.
    rewrite E. do 3 eexists. split.
    { unfold ret. f_equal. cbn [length]. change (count_true (true :: ops)) with (S (count_true ops)).
      replace (k + S (length ops))%nat with (S k + length ops)%nat by lia. replace (m + S (count_true ops))%nat with (S m + count_true ops)%nat by lia. reflexivity. }
    split; [cbn [length]; lia|]. split.
    + intros [|i] Hi; cbn [nth_error firstn] in *.
      * rewrite Nat.add_0_r. change (count_true []) with 0%nat. rewrite Nat.add_0_r. reflexivity.
      * rewrite (T i Hi). change (count_true (true :: firstn i ops)) with (S (count_true (firstn i ops))).
        replace (k + S i)%nat with (S k + i)%nat by lia. replace (m + S (count_true (firstn i ops)))%nat with (S m + count_true (firstn i ops))%nat by lia. reflexivity.
    + intros [|i] Hi; cbn [nth_error] in *; [discriminate|]. rewrite (F i Hi). replace (k + S i)%nat with (S k + i)%nat by lia. reflexivity.
  - unfold bind. rewrite (scalar_step a n alpha scale gx gy gz k m prev cur H).
    destruct (IH (S k) m prev cur) as (prev' & cur' & outs & E & L & T & F). rewrite E. do 3 eexists. split.
    { unfold ret. f_equal. cbn [length]. change (count_true (false :: ops)) with (count_true ops).
      replace (k + S (length ops))%nat with (S k + length ops)%nat by lia. reflexivity. }
    split; [cbn [length]; lia|]. split.
    + intros [|i] Hi; cbn [nth_error firstn] in *; [discriminate|]. rewrite (T i Hi).
      change (count_true (false :: firstn i ops)) with (count_true (firstn i ops)). replace (k + S i)%nat with (S k + i)%nat by lia. reflexivity.
    + intros [|i] Hi; cbn [nth_error] in *.
      * rewrite Nat.add_0_r. reflexivity.
      * rewrite (F i Hi). replace (k + S i)%nat with (S k + i)%nat by lia. reflexivity.
Qed.
Lemma vector_calls n alpha scale a gx gy gz v ops : mkVectorNoise n alpha scale a gx gy gz = Ok v ->
  exists v' outs, noise_calls ops v = (v', Ok outs) /\ length outs = length ops /\
  (forall i, nth_error ops i = Some true -> exists c, nth_error outs i = Some (inl (Scal scale c)) /\
     axis_sample a (coloured_sample n alpha gx i) (coloured_sample n alpha gy (count_true (firstn i ops))) (coloured_sample n alpha gz (count_true (firstn i ops))) c) /\
  (forall i, nth_error ops i = Some false -> exists x, nth_error outs i = Some (inr x) /\
     (has_x a -> x = scale * coloured_sample n alpha gx i) /\ (~ has_x a -> x = 0)).
Proof.
  intros E. apply mkVector_iff in E. destruct E as (A & H & ->).
  destruct (noise_calls_from a n alpha scale gx gy gz ops H 0 0 Zero Zero) as (p & c & outs & E & L & T & F). do 2 eexists. split; [exact E|]. split; [exact L|]. split.
  - intros i Hi. eexists. split; [exact (T i Hi)|]. cbn [Nat.add]. apply sample_iff; [exact A|reflexivity].
  - intros i Hi. eexists. split; [exact (F i Hi)|]. unfold has_x. destruct a; cbn [on_x Nat.add]; (split; intros X);
      try reflexivity; try (destruct X; discriminate); try ring; exfalso; apply X; auto.
Qed.
Lemma vector_total n alpha scale a gx gy gz : a <> none_axis -> (0 < n)%nat -> exists v, mkVectorNoise n alpha scale a gx gy gz = Ok v.
Proof. intros A H. eexists. apply mkVector_iff. auto. Qed.
(** What a sample can be. *)
Lemma sample_shape a x y z c scale : axis_sample a x y z c ->
  match a with
  | xaxis => cy (Scal scale c) = 0 /\ cz (Scal scale c) = 0
  | yaxis => cx (Scal scale c) = 0 /\ cz (Scal scale c) = 0
  | zaxis => cx (Scal scale c) = 0 /\ cy (Scal scale c) = 0
  | _ => Norm (Scal scale c) = Rabs scale \/ Scal scale c = Zero
  end.
Proof.
  destruct a; cbn [axis_sample]; intros H; try (subst c; cbn; split; ring); [|contradiction].
  destruct H as [[_ ->]|[N ->]].
  - right. unfold Scal, Zero. f_equal; ring.
  - left. assert (U : Norm2 (Scal (/ Norm (CV x y z)) (CV x y z)) = 1).
    { pose proof (vnormalize_unit _ N) as U. rewrite vnormalize_nonzero in U by exact N. exact U. }
    revert U. generalize (Scal (/ Norm (CV x y z)) (CV x y z)). intros u U. unfold Norm. rewrite Norm2_Scal, U, Rmult_1_r. rewrite <- (sqrt_Rsqr_abs scale). reflexivity.
Qed.
(** The layers' noise source delivers the same samples. *)
Lemma layer_source n alpha scale a gx gy gz v : mkVectorNoise n alpha scale a gx gy gz = Ok v ->
  let raw k := CV (coloured_sample n alpha gx k) (coloured_sample n alpha gy k) (coloured_sample n alpha gz k) in
  forall K, exists v' outs, calls noise_tickVector K v = (v', Ok outs) /\ length outs = K /\
    (forall k, (k < K)%nat -> nth_error outs k = Some (snd (tickVector (VN a scale raw k)))) /\
    w_scale v' = scale.
Proof.
  intros E raw. apply mkVector_iff in E. destruct E as (A & H & ->).
  set (out := fun k => sample_at a (coloured_sample n alpha gx k) (coloured_sample n alpha gy k) (coloured_sample n alpha gz k)).
  set (st := fun k => vector_at a n alpha scale gx gy gz k k (match k with S (S j) => out j | _ => Zero end) (match k with S j => out j | _ => Zero end)).
  intros K. do 2 eexists. split.
  { apply (calls_seq noise_tickVector st (fun k => Scal scale (out k))). intros k. unfold st at 1. rewrite (vector_step a n alpha scale gx gy gz k k _ _ H).
    unfold st. destruct k; reflexivity. }
  split; [rewrite map_length, seq_length; reflexivity|]. split; [|reflexivity].
  intros k Hk. rewrite nth_error_map, (nth_error_nth' _ 0%nat) by (rewrite seq_length; exact Hk). rewrite seq_nth by exact Hk. cbn [option_map]. f_equal.
  unfold tickVector. cbn [snd vn_axis vn_raw vn_scale vn_pos]. rewrite vscale_Scal. unfold out, sample_at, raw. destruct a; cbn; try reflexivity; congruence.
Qed.
(** The remembered sample is the one before the last, without the scale. *)
Lemma remembered n alpha scale a gx gy gz v v' outs K : mkVectorNoise n alpha scale a gx gy gz = Ok v -> calls noise_tickVector K v = (v', Ok outs) ->
  getScale v' = scale /\ ((K < 2)%nat -> getPrevSample v' = Zero) /\
  ((2 <= K)%nat -> nth_error outs (K - 2) = Some (Scal scale (getPrevSample v'))).
Proof.
  intros E C. apply mkVector_iff in E. destruct E as (A & H & ->).
  set (out := fun k => sample_at a (coloured_sample n alpha gx k) (coloured_sample n alpha gy k) (coloured_sample n alpha gz k)).
  set (st := fun k => vector_at a n alpha scale gx gy gz k k (match k with S (S j) => out j | _ => Zero end) (match k with S j => out j | _ => Zero end)).
  pose proof (calls_seq noise_tickVector st (fun k => Scal scale (out k))) as X.
  assert (S1 : forall k, noise_tickVector (st k) = (st (S k), Ok (Scal scale (out k)))).
  { intros k. unfold st at 1. rewrite (vector_step a n alpha scale gx gy gz k k _ _ H). unfold st. destruct k; reflexivity. }
  specialize (X S1 K 0%nat). cbn [Nat.add] in X. assert (Q : (v', @Ok (list cvec) outs) = (st K, Ok (map (fun k => Scal scale (out k)) (seq 0 K)))) by (rewrite <- C; exact X).
  injection Q as -> ->. split; [reflexivity|]. split.
  - intros L. destruct K as [|[|K]]; [reflexivity|reflexivity|lia].
  - intros L. destruct K as [|[|K]]; [lia|lia|]. replace (S (S K) - 2)%nat with K by lia.
    rewrite nth_error_map, (nth_error_nth' _ 0%nat) by (rewrite seq_length; lia). rewrite seq_nth by lia. reflexivity.
Qed.
