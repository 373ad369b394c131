(** Consequences of the exact result of the domain noise model. *)
From Verif Require Export P_NoiseModel.
From Verif Require Import P_Noise.
Open Scope R_scope.
Open Scope st_scope.

Lemma noise_total a w vs fs n : areas a w vs -> periods a w vs fs -> whole_part (na_steps a) (Z.of_nat n) -> noise_allowed a w fs n ->
  exists o, noise_model a w = Ok o /\ no_volumes o = vs /\ no_freqs o = fs /\ length (no_m o) = n.
Proof.
  intros HA HP HN AL. eexists. split; [exact (noise_value HA HP AL HN)|]. split; [reflexivity|]. split; [reflexivity|]. cbn. rewrite map_length, seq_length. reflexivity.
Qed.
Lemma entry_no_m a n M t d : (t < n)%nat -> (d < na_dims a)%nat -> entry (map (fun t => map (M (S t)) (seq 0 (na_dims a))) (seq 0 n)) t d = M (S t) d.
Proof. intros T D. unfold entry. rewrite nth_map_seq' by exact T. apply nth_map_seq', D. Qed.
Lemma noise_drift a w o x d t j : noise_model a w = Ok o -> (d < na_dims a)%nat -> (t + j < length (no_m o))%nat ->
  (forall s, (t < s <= t + j)%nat -> disturbance_of a w s (x s) /\ forall k, (k < na_N a)%nat -> ~ renewed a w (no_freqs o) s k) ->
  entry (no_m o) (t + j) d = entry (no_m o) t d + Rsum (fun s => x (t + 1 + s)%nat) j.
Proof.
  intros E D. apply noise_iff in E. destruct E as (n & V & M & HN & HA & HP & AL & (H0 & M0 & ST) & EM & _). rewrite EM, map_length, seq_length. intros L H.
  induction j as [|j IH]; [cbn; rewrite Nat.add_0_r; ring|]. rewrite !entry_no_m by lia. replace (t + S j)%nat with (S (t + j)) in * by lia.
  destruct (H (S (t + j)) ltac:(lia)) as [X NR]. destruct (ST (S (t + j)) d ltac:(lia) D) as [_ SM]. destruct (SM _ X) as [_ S2]. rewrite (S2 NR). cbn [Rsum].
  assert (IH' := IH ltac:(lia) (fun s K => H s ltac:(lia))). rewrite !entry_no_m in IH' by lia. rewrite IH'. replace (t + 1 + j)%nat with (S (t + j)) by lia. ring.
Qed.
Lemma noise_head a w o x d t : noise_model a w = Ok o -> (d < na_dims a)%nat -> (t < length (no_m o))%nat ->
  (forall s, (s <= t)%nat -> disturbance_of a w s (x s) /\ forall k, (k < na_N a)%nat -> ~ renewed a w (no_freqs o) s k) ->
  entry (no_m o) t d = Rsum x (S t).
Proof.
  intros E D. apply noise_iff in E. destruct E as (n & V & M & HN & HA & HP & AL & (H0 & M0 & ST) & EM & _). rewrite EM, map_length, seq_length. intros L H. rewrite entry_no_m by lia.
  induction t as [|t IH].
  - destruct (H 0%nat ltac:(lia)) as [X NR]. destruct (ST 0%nat d ltac:(lia) D) as [_ SM]. destruct (SM _ X) as [_ S2]. rewrite (S2 NR), (M0 d D). cbn. ring.
  - destruct (H (S t) ltac:(lia)) as [X NR]. destruct (ST (S t) d ltac:(lia) D) as [_ SM]. destruct (SM _ X) as [_ S2]. rewrite (S2 NR), (IH ltac:(lia) (fun s K => H s ltac:(lia))). reflexivity.
Qed.
Lemma noise_renewal a w o vv x d t : noise_model a w = Ok o -> no_vectors o = Some vv -> (d < na_dims a)%nat -> (t < length (no_m o))%nat -> disturbance_of a w t x ->
  (exists k, (k < na_N a)%nat /\ renewed a w (no_freqs o) t k) ->
  entry (no_m o) t d = Rsum (fun k => nth k (no_volumes o) 0 * entry (nth t vv []) k d) (na_N a) + x.
Proof.
  intros E EV D. apply noise_iff in E. destruct E as (n & V & M & HN & HA & HP & AL & (H0 & M0 & ST) & EM & _ & _ & _ & ES). rewrite EM, map_length, seq_length. intros L X RN. rewrite entry_no_m by lia.
  destruct (ST t d L D) as [_ SM]. destruct (SM _ X) as [S1 _]. rewrite (S1 RN). f_equal. apply Rsum_ext. intros k K. f_equal. rewrite ES in EV. destruct (na_save a); [|discriminate].
  injection EV as <-. rewrite nth_map_seq' by exact L. unfold entry. rewrite nth_map_seq' by exact K. rewrite nth_map_seq' by exact D. reflexivity.
Qed.
Lemma noise_counts a w o k : noise_model a w = Ok o -> (k < na_N a)%nat -> (0 <= nth k (no_counts o) 0 <= Z.of_nat (length (no_m o)))%Z.
Proof.
  intros E K. apply noise_iff in E. destruct E as (n & V & M & HN & HA & HP & AL & _ & EM & _ & _ & CN & _). destruct (CN k K) as (c & -> & CB). rewrite EM, map_length, seq_length.
  assert (G : forall P k c, count_below P k c -> (c <= k)%nat) by (intros P k' c' H; induction H; lia). apply G in CB. lia.
Qed.
Lemma noise_shape a w o : noise_model a w = Ok o -> whole_part (na_steps a) (Z.of_nat (length (no_m o))) /\ sized (no_m o) (length (no_m o)) (na_dims a) /\ length (no_volumes o) = na_N a /\ length (no_freqs o) = na_N a /\ length (no_counts o) = na_N a.
Proof.
  intros E. apply noise_iff in E. destruct E as (n & V & M & HN & HA & HP & AL & _ & EM & _ & LC & _). assert (LV := areas_length HA). assert (LF := periods_length LV HP).
  rewrite EM, map_length, seq_length. split; [exact HN|]. split; [|split; [exact LV|split; [exact LF|exact LC]]].
  split; [rewrite map_length, seq_length; reflexivity|]. try (intros r I; apply in_map_iff in I; destruct I as (t & <- & _); rewrite map_length, seq_length; reflexivity); try (apply Forall_forall; intros r I; apply in_map_iff in I; destruct I as (t & <- & _); rewrite map_length, seq_length; reflexivity).
Qed.
(** ** Areas *)
Lemma sum_perm l l' : Permutation l l' -> sum_list l = sum_list l'.
Proof. unfold sum_list; induction 1; cbn; lra. Qed.
Lemma unit_area a w o : noise_model a w = Ok o -> na_volumes a = "uniform"%string -> na_N a <> 0%nat -> Rsum (fun k => nth k (no_volumes o) 0) (na_N a) = 1.
Proof.
  intros E U NZ. apply noise_iff in E. destruct E as (n & V & M & HN & HA & _). assert (LV := areas_length HA). destruct HA as [_ [[X _]|(_ & NS & P)]]; [congruence|]. specialize (NS NZ).
  apply sum_perm in P. rewrite sum_map_seq in P. rewrite (list_as_map 0 (no_volumes o)), LV, sum_map_seq in P. rewrite <- P.
  rewrite (Rsum_ext _ (fun k => / Rsum (nd_volume w) (na_N a) * nd_volume w k)) by (intros k _; unfold Rdiv; ring). rewrite Rsum_scal. field. exact NS.
Qed.
Lemma areas_sorted a w o i j : noise_model a w = Ok o -> (i <= j < na_N a)%nat -> nth i (no_volumes o) 0 <= nth j (no_volumes o) 0.
Proof.
  intros E L. apply noise_iff in E. destruct E as (n & V & M & HN & HA & _). assert (LV := areas_length HA). destruct HA as [SS _]. rewrite <- LV in L. clear - SS L. revert i j L.
  induction SS as [|x l SS IH F]; intros i j L; cbn in L; [lia|]. destruct i, j; cbn [nth]; [lra| |lia|apply IH; lia]. rewrite Forall_forall in F. apply F, nth_In. lia.
Qed.
Lemma whole_part_mono x y z u : x <= y -> whole_part x z -> whole_part y u -> (z <= u)%Z.
Proof.
  intros L A B. apply ztrunc_iff in A, B. destruct (Z_le_gt_dec z u) as [|G]; [assumption|exfalso]. apply ztrunc_iff in A, B.
  assert (U : IZR u + 1 <= IZR z) by (rewrite <- plus_IZR; apply IZR_le; lia).
  destruct A as [[A1 A2]|[A1 A2]], B as [[B1 B2]|[B1 B2]]; try lra.
  assert (Z0 : (0 <= u)%Z) by (apply le_IZR; apply Rnot_lt_le; intros N; assert (u < 0)%Z by (apply lt_IZR; exact N); assert (IZR u + 1 <= 0) by (rewrite <- plus_IZR; apply IZR_le; lia); lra).
  assert (Z1 : (z <= 0)%Z) by (apply Z.lt_succ_r, lt_IZR; unfold Z.succ; rewrite plus_IZR; lra). lia.
Qed.
Lemma periods_ascend a w o i j : noise_model a w = Ok o -> na_freqs a = "functional"%string -> 0 <= na_frequency_scale a -> (forall k, (k < na_N a)%nat -> 0 < nth k (no_volumes o) 0) ->
  (i <= j < na_N a)%nat -> (1 <= nth i (no_freqs o) 0 <= nth j (no_freqs o) 0)%Z.
Proof.
  intros E F SC POS L. assert (SO := fun p q => areas_sorted a w o p q E). apply noise_iff in E. destruct E as (n & V & M & HN & HA & HP & _). assert (LV := areas_length HA).
  destruct HP as [(_ & LF & W)|(X & _)]; [|congruence]. rewrite LV in W. destruct (W i ltac:(lia)) as [_ Wi]. destruct (W j ltac:(lia)) as [_ Wj].
  assert (Pi := POS (na_N a - 1 - i)%nat ltac:(lia)). assert (Pj := POS (na_N a - 1 - j)%nat ltac:(lia)). assert (O := SO (na_N a - 1 - j)%nat (na_N a - 1 - i)%nat ltac:(lia)).
  assert (Q : na_frequency_scale a / nth (na_N a - 1 - i) (no_volumes o) 0 <= na_frequency_scale a / nth (na_N a - 1 - j) (no_volumes o) 0).
  { unfold Rdiv. apply Rmult_le_compat_l; [exact SC|]. apply Rinv_le_contravar; assumption. }
  assert (Q0 : 0 <= na_frequency_scale a / nth (na_N a - 1 - i) (no_volumes o) 0) by (apply Rmult_le_pos; [exact SC|left; apply Rinv_0_lt_compat, Pi]).
  assert (A1 := whole_part_mono _ _ _ _ Q Wi Wj). assert (Z : whole_part 0 0) by (left; lra). assert (A2 := whole_part_mono _ _ _ _ Q0 Z Wi). lia.
Qed.
(** A domain with the undisturbed period one, and one with the period zero, is renewed in every step. *)
Lemma always_fires a w fs t k : (nth k fs 0 + nd_disturbance w t k = 0 \/ nth k fs 0 + nd_disturbance w t k = 1)%Z -> renewed a w fs t k.
Proof. unfold renewed, fires. intros [-> | ->]; [left; reflexivity|right]. apply Z.divide_1_l. Qed.
Lemma frozen_count a w o k : noise_model a w = Ok o -> (k < na_N a)%nat -> (forall t, (t < length (no_m o))%nat -> renewed a w (no_freqs o) t k) -> nth k (no_counts o) 0%Z = Z.of_nat (length (no_m o)).
Proof.
  intros E K. apply noise_iff in E. destruct E as (n & V & M & HN & HA & HP & AL & _ & EM & _ & _ & CN & _). destruct (CN k K) as (c & -> & CB). rewrite EM, map_length, seq_length. intros H. f_equal. clear - CB H.
  revert c CB H. induction n as [|n IH]; intros c CB H; inversion CB; subst; [reflexivity| |exfalso; match goal with NR : ~ renewed _ _ _ _ _ |- _ => apply NR, H end; lia]. f_equal. apply IH; [assumption|]. intros t T. apply H. lia.
Qed.
(** ** Refusals *)
Lemma both_refused a w o : na_oscillations a = true -> 0 < na_background a -> noise_model a w <> Ok o.
Proof. intros O B E. apply noise_sound in E. destruct E as (n & _ & _ & (NB & _) & _). tauto. Qed.
Lemma silent_refused a w o : na_oscillations a = false -> na_background a <= 0 -> 1 <= na_steps a -> noise_model a w <> Ok o.
Proof.
  intros O B S1 E. apply noise_sound in E. destruct E as (n & _ & _ & (_ & [Z|[C|C]] & _) & WP); [|congruence|lra]. subst n. destruct WP as [[_ [_ X]]|[X _]]; cbn in X; lra.
Qed.
Lemma unknown_refused a w o : na_volumes a <> "pareto"%string /\ na_volumes a <> "uniform"%string \/ na_freqs a <> "functional"%string /\ na_freqs a <> "uniform"%string -> noise_model a w <> Ok o.
Proof.
  intros U E. apply noise_sound in E. destruct E as (n & (_ & HA) & HP & _). destruct HP as [(HP & _)|(HP & _)]; destruct HA as [(HA & _)|(HA & _)]; intuition congruence.
Qed.
Lemma negative_refused a w o : na_steps a <= -1 -> noise_model a w <> Ok o.
Proof.
  intros S1 E. apply noise_sound in E. destruct E as (n & _ & _ & _ & WP). assert (P := pos_INR n). rewrite INR_IZR_INZ in P. destruct WP as [[X _]|[_ X]]; lra.
Qed.
(** ** Concrete calls *)
Definition two_domains (thermal background : R) (osc : bool) (steps : R) : noise_args :=
  NArgs 2 steps thermal background 0 osc "pareto" "uniform" 1000 1 0 1 1 false 1.
Definition two_draws : noise_draws := NDraws (fun _ => 1) (fun k => match k with O => 1%Z | _ => 5%Z end) (fun _ => 0) (fun _ => 0) (fun _ _ => 1) (fun _ _ => 1) (fun _ _ => 0%Z) (fun _ _ _ => 1).
Lemma two_areas t b o s : areas (two_domains t b o s) two_draws [1; 1].
Proof.
  split; [constructor; [constructor; [constructor|constructor]|constructor; [lra|constructor]]|]. left. split; [reflexivity|]. apply Permutation_refl.
Qed.
Lemma two_periods t b o s : periods (two_domains t b o s) two_draws [1; 1] [1; 5]%Z.
Proof. right. split; [reflexivity|]. split; [reflexivity|]. intros [|[|k]] K; [reflexivity|reflexivity|cbn in K; lia]. Qed.
Lemma two_whole n t b o : whole_part (na_steps (two_domains t b o (INR n))) (Z.of_nat n).
Proof. left. cbn. rewrite INR_IZR_INZ. assert (P := pos_INR n). rewrite INR_IZR_INZ in P. lra. Qed.
Lemma two_renewed t b o s j : renewed (two_domains t b o s) two_draws [1; 5]%Z j 0.
Proof. apply always_fires. right. reflexivity. Qed.
Lemma two_kept t b o s j : (j < 4)%nat -> ~ renewed (two_domains t b o s) two_draws [1; 5]%Z j 1.
Proof.
  intros J [X|X]; [discriminate X|]. destruct X as [z X]. assert (Y : (1 + Z.of_nat j = z * 5)%Z) by exact X. lia.
Qed.
Lemma two_osc (t s : R) (m : nat) : (0 <= t)%R -> disturbance_of (two_domains t 0 true s) two_draws m 0.
Proof. intros _. left. split; [reflexivity|]. rewrite (Rsum_ext _ (fun _ => 0)); [symmetry; apply Rsum_zero; reflexivity|]. intros k _. cbn [na_amplitude two_domains]. ring. Qed.
Lemma two_model t : 0 <= t -> exists o, noise_model (two_domains t 0 true 1) two_draws = Ok o /\ no_m o = [[t + 1]].
Proof.
  intros T. assert (WP : whole_part (na_steps (two_domains t 0 true 1)) (Z.of_nat 1)) by (exact (two_whole 1 t 0 true)).
  assert (AL : noise_allowed (two_domains t 0 true 1) two_draws [1; 5]%Z 1) by (split; [intros [_ X]; cbn in X; lra|]; split; [right; left; reflexivity|left; exact T]).
  destruct (noise_total _ _ _ _ _ (two_areas t 0 true 1) (two_periods t 0 true 1) WP AL) as (o & E & EV & EF & LM). exists o. split; [exact E|].
  apply noise_iff in E. destruct E as (n & V & M & HN & HA & HP & _ & (H0 & M0 & ST) & EM & _). rewrite EM, map_length, seq_length in LM. subst n. rewrite EM. cbn [seq map na_dims two_domains]. do 2 f_equal.
  destruct (ST 0%nat 0%nat ltac:(lia) ltac:(cbn; lia)) as [SV SM]. destruct (SM 0 (two_osc t 1 0 T)) as [S1 _]. rewrite S1; [|exists 0%nat; split; [cbn; lia|rewrite EF; apply two_renewed]].
  rewrite EV. cbn [na_N two_domains Rsum nth]. destruct (SV 0%nat ltac:(cbn; lia)) as [A _]. destruct (SV 1%nat ltac:(cbn; lia)) as [_ B].
  rewrite (A 0%nat); [|rewrite EF; apply two_renewed|constructor]. rewrite B; [|rewrite EF; apply two_kept; lia]. rewrite H0 by (cbn; lia). cbn. ring.
Qed.
(** Without any thermal motion and without oscillations the signal need not vanish: the start values are not scaled. *)
Lemma silent_signal_refuted : ~ forall a w o t d, noise_model a w = Ok o -> na_thermal a = 0 -> na_background a = 0 -> na_amplitude a = 0 -> entry (no_m o) t d = 0.
Proof.
  intros H. destruct (two_model 0) as (o & E & EM); [lra|]. specialize (H _ _ _ 0%nat 0%nat E eq_refl eq_refl eq_refl). rewrite EM in H. cbn in H. lra.
Qed.
