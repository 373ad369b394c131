(** C52: Oersted fields of block structures. *)
From Verif Require Import P_Oersted S_Oersted.
From Coq Require Import Psatz.
From Coq Require String.
Open Scope R_scope.
Open Scope st_scope.

(** ** A structure for the examples: two by three blocks *)
Definition ex_s : structure := Structure (PFloat 3) 1 1 1 2 3 1 (fresh_blocks 2 3 1 1 1 1) [] [].
Lemma ex_built : built ex_s.
Proof. apply fresh_built; try lia; lra. Qed.
Lemma ex_blocks : s_blocks ex_s = [newBlock 0 0 0 1 1 1; newBlock 0 1 0 1 1 1; newBlock 0 2 0 1 1 1; newBlock 1 0 0 1 1 1; newBlock 1 1 0 1 1 1; newBlock 1 2 0 1 1 1].
Proof. reflexivity. Qed.
Definition ex_b : block := Blk 0 0 0 1 1 1 0 5.
Definition ex_o : block := Blk 0 1 0 1 1 1 0 7.
Lemma ex_distance : centre_distance ex_b ex_o = 1.
Proof. unfold centre_distance, ex_b, ex_o. cbn [b_dx b_dy b_ix b_iy]. replace ((1 * (0 - 0)) ^ 2 + (1 * (0 - 1)) ^ 2) with 1 by ring. apply sqrt_1. Qed.

(** ** Two blocks *)
(** The field of o at b is finite unless they share a column; it is twice the law of Ampere for their distance. *)
Theorem c52_ampere : forall b o h, b_dx b = b_dx o -> b_dy b = b_dy o -> b_dx b <> 0 -> b_dy b <> 0 ->
  block_ampere b o = Ok h <-> ~ (b_ix b = b_ix o /\ b_iy b = b_iy o) /\ h = b_I o / (PI * centre_distance b o).
Proof.
  intros b o h E1 E2 N1 N2. rewrite (ampere_iff b o h E1 E2). rewrite <- (distance_zero b o N1 N2). pose proof PI_RGT_0. split; intros [D ->]; (split; [exact D|]); unfold ampere_field; field; (split; [exact D|lra]).
Qed.
Example c52_ampere_ex : block_ampere ex_b ex_o = Ok (7 / (PI * 1)).
Proof. rewrite <- ex_distance. apply c52_ampere; cbn; try lra; try reflexivity. split; [intros [_ H]; discriminate|reflexivity]. Qed.
Theorem c52_ampere_law_refuted : forall b o h, b_dx b = b_dx o -> b_dy b = b_dy o -> block_ampere b o = Ok h -> h = b_I o / (2 * PI * centre_distance b o) -> b_I o = 0.
Proof.
  intros b o h E1 E2 H G. apply (ampere_iff b o h E1 E2) in H. destruct H as [D ->]. pose proof PI_RGT_0 as Pp. unfold ampere_field in G. assert (Q : b_I o / (2 * PI * (centre_distance b o / 2)) = 2 * (b_I o / (2 * PI * centre_distance b o))) by (field; split; [exact D|lra]). rewrite Q in G.
  assert (Z : b_I o / (2 * PI * centre_distance b o) = 0) by lra. apply (Rmult_eq_reg_r (/ (2 * PI * centre_distance b o))); [unfold Rdiv in Z; rewrite Z; ring|]. apply Rinv_neq_0_compat. apply Rmult_integral_contrapositive_currified; [lra|exact D].
Qed.
Example c52_ampere_law_refuted_ex : b_dx ex_b = b_dx ex_o /\ b_dy ex_b = b_dy ex_o /\ block_ampere ex_b ex_o = Ok (7 / (PI * 1)) /\ b_I ex_o <> 0.
Proof. repeat split; [apply c52_ampere_ex|cbn; lra]. Qed.
(** Each block acts on the other in proportion to its current. *)
Theorem c52_reciprocal : forall b o h k, b_dx b = b_dx o -> b_dy b = b_dy o -> block_ampere b o = Ok h -> block_ampere o b = Ok k -> b_I b * h = b_I o * k.
Proof.
  intros b o h k E1 E2 H K. apply (ampere_iff b o h E1 E2) in H. apply ampere_iff in K; [|congruence|congruence]. destruct H as [D ->]. destruct K as [D' ->]. unfold ampere_field. rewrite (distance_sym o b) by congruence. pose proof PI_RGT_0. field. split; [exact D|lra].
Qed.
Example c52_reciprocal_ex : exists h k, block_ampere ex_b ex_o = Ok h /\ block_ampere ex_o ex_b = Ok k.
Proof. eexists _, _. split; apply c52_ampere; cbn; try lra; try reflexivity; (split; [intros [_ H]; discriminate|reflexivity]). Qed.
Theorem c52_biot_savart : forall b o h, b_dx b = b_dx o -> b_dy b = b_dy o -> biot_savart b o = Ok h <->
  h = if Rlt_dec (centre_distance b o) (2 / 10 ^ 15) then 0 else b_I o * (b_dx o * b_dy o) * b_dz b / (4 * PI * (centre_distance b o / 2) ^ 2).
Proof. exact biot_iff. Qed.
Example c52_biot_savart_ex : exists h, biot_savart ex_b ex_o = Ok h.
Proof. eexists. apply c52_biot_savart; reflexivity. Qed.
Theorem c52_block_updates : forall b v, place (set_I v b) = place b /\ b_I (set_I v b) = v /\ b_H (set_I v b) = b_H b /\ set_j v b = set_I (v * (b_dx b * b_dy b)) b /\
  place (add_H v b) = place b /\ b_I (add_H v b) = b_I b /\ b_H (add_H v b) = b_H b + v /\ (forall dx dy dz, (sized dx dy dz (set_I v b) <-> sized dx dy dz b) /\ (sized dx dy dz (add_H v b) <-> sized dx dy dz b)).
Proof. intros. unfold set_j, b_area, sized. cbn. tauto. Qed.
Theorem c52_same_block : forall b o, block_eq b o = true <-> place b = place o.
Proof. exact eq_iff. Qed.
Theorem c52_squared_distance : forall b o, sized (b_dx b) (b_dy b) (b_dz b) o ->
  distance_sqr_from b o = (centre_distance b o ^ 2 + (b_dz b * (IZR (b_iz b) - IZR (b_iz o))) ^ 2) / 4.
Proof.
  intros b o (E1 & E2 & E3). unfold distance_sqr_from, centre_distance, b_x, b_y, b_z. rewrite E1, E2, E3. rewrite pow2_sqrt; [field|]. pose proof (pow2_ge_0 (b_dx b * (IZR (b_ix b) - IZR (b_ix o)))). pose proof (pow2_ge_0 (b_dy b * (IZR (b_iy b) - IZR (b_iy o)))). lra.
Qed.
Example c52_squared_distance_ex : sized (b_dx ex_b) (b_dy ex_b) (b_dz ex_b) ex_o.
Proof. unfold sized. cbn. tauto. Qed.

(** ** Structures *)
(** Sizes are rounded up; more than one layer of blocks needs the other method. *)
Theorem c52_created : forall maxX maxY maxZ dx dy dz method s, newStructure maxX maxY maxZ dx dy dz method = Ok s <->
  dx <> 0 /\ dy <> 0 /\ dz <> 0 /\ exists X Y Zs, IZR X - 1 < num_val maxX / dx <= IZR X /\ IZR Y - 1 < num_val maxY / dy <= IZR Y /\ (0 <= X)%Z /\ (0 <= Y)%Z /\
    (Zs = 1%Z /\ num_val maxZ / dz <= 1 \/ method = BIOT_SAVART /\ (1 < Zs)%Z /\ IZR Zs - 1 < num_val maxZ / dz <= IZR Zs) /\
    s = Structure maxY dx dy dz X Y Zs (fresh_blocks X Y Zs dx dy dz) [] [].
Proof. exact new_iff. Qed.
Example c52_created_ex : newStructure (PInt 2) (PFloat 3) (PFloat 0) 1 1 1 AMPERE = Ok ex_s.
Proof. apply c52_created. repeat (split; [lra|]). exists 2%Z, 3%Z, 1%Z. cbn [num_val]. repeat (split; [lra || lia|]). split; [left; split; [reflexivity|lra]|reflexivity]. Qed.
(** The cells of the structure, each once. *)
Theorem c52_cells : forall X Y Zs, NoDup (grid X Y Zs) /\ forall x y z, In (x, y, z) (grid X Y Zs) <-> (0 <= x < X)%Z /\ (0 <= y < Y)%Z /\ (0 <= z < Zs)%Z.
Proof. intros. split; [apply grid_nodup|apply grid_in]. Qed.
Theorem c52_created_built : forall maxX maxY maxZ dx dy dz method s, newStructure maxX maxY maxZ dx dy dz method = Ok s -> built s /\ forall b, In b (s_blocks s) -> b_I b = 0 /\ b_H b = 0.
Proof.
  intros maxX maxY maxZ dx dy dz method s H. apply c52_created in H. destruct H as (N1 & N2 & N3 & X & Y & Zs & _ & _ & PX & PY & CZ & ->). split; [apply fresh_built; try assumption; lia|]. intros b Hb. cbn in Hb. apply fresh_zero in Hb. tauto.
Qed.
Example c52_created_built_ex : exists s, newStructure (PInt 2) (PFloat 3) (PFloat 0) 1 1 1 AMPERE = Ok s.
Proof. eexists. apply c52_created_ex. Qed.
Theorem c52_reset : forall s, built s -> exists s', reset_blocks s = (s', Ok tt) /\ s' = with_blocks (fresh_blocks (s_X s) (s_Y s) (s_Z s) (s_dx s) (s_dy s) (s_dz s)) s /\ built s' /\ forall b, In b (s_blocks s') -> b_I b = 0 /\ b_H b = 0.
Proof.
  intros s (B1 & B2 & B3 & B4 & B5 & _). eexists. split; [|split; [reflexivity|split]].
  - unfold reset_blocks, bind, get, lift, modify. rewrite (proj2 (init_iff (s_X s) (s_Y s) (s_Z s) (s_dx s) (s_dy s) (s_dz s) (fresh_blocks (s_X s) (s_Y s) (s_Z s) (s_dx s) (s_dy s) (s_dz s)))); [reflexivity|]. repeat split; try assumption; lia.
  - apply fresh_built; assumption.
  - intros b Hb. apply fresh_zero in Hb. tauto.
Qed.
Example c52_reset_ex : built ex_s. Proof. exact ex_built. Qed.

(** ** Currents *)
(** The rows from lo up to, not including, the end get an equal current; everything else is kept. *)
Theorem c52_region_currents : forall I lo hi s s', built s -> set_region_I_idx I lo hi s = (s', Ok tt) <->
  exists e, region_end s hi e /\ (0 < s_X s)%Z /\ Rmin (region_top s hi + 1) (IZR (s_Y s)) <> IZR lo /\ (e <= lo \/ - s_Y s <= lo)%Z /\
  s' = with_blocks (map (fun b => if in_rows (s_Y s) lo e (b_iy b) then set_I (region_share s I lo hi) b else b) (s_blocks s)) s.
Proof. exact set_region_iff. Qed.
Lemma ex_region : set_region_I_idx 6 0 (PInt 2) ex_s = (with_blocks (map (fun b => if in_rows 3 0 2 (b_iy b) then set_I (region_share ex_s 6 0 (PInt 2)) b else b) (s_blocks ex_s)) ex_s, Ok tt).
Proof.
  apply (c52_region_currents _ _ _ ex_s _ ex_built). exists 2%Z. unfold region_end, region_top. cbn [num_val]. destruct (Req_EM_T 2 (-1)); [lra|]. change (s_Y ex_s) with 3%Z. change (s_X ex_s) with 2%Z. split; [right; repeat split; try lra; right; reflexivity|]. split; [lia|]. split; [unfold Rmin; destruct (Rle_dec (2 + 1) 3); lra|]. split; [right; lia|reflexivity].
Qed.
Example c52_region_currents_ex : exists s', built ex_s /\ set_region_I_idx 6 0 (PInt 2) ex_s = (s', Ok tt).
Proof. eexists. split; [exact ex_built|exact ex_region]. Qed.
Theorem c52_region_failure_keeps : forall I lo hi s s' er, built s -> set_region_I_idx I lo hi s = (s', Err er) -> s' = s.
Proof. exact set_region_fail. Qed.
Example c52_region_failure_keeps_ex : exists s' er, set_region_I_idx 6 3 (PInt 2) ex_s = (s', Err er).
Proof.
  destruct (set_region_I_idx 6 3 (PInt 2) ex_s) as [s' [[]|er]] eqn:E; [|eexists _, _; reflexivity]. exfalso. apply (c52_region_currents _ _ _ ex_s _ ex_built) in E. destruct E as (e & _ & _ & N & _). apply N. unfold region_top. cbn [num_val]. destruct (Req_EM_T 2 (-1)); [lra|]. change (s_Y ex_s) with 3%Z. unfold Rmin. destruct (Rle_dec (2 + 1) 3); lra.
Qed.
(** The total current of the region; it is the requested one exactly if the count of rows matches. *)
Theorem c52_region_total : forall I lo hi s s' e, built s -> (0 <= lo <= e)%Z -> region_end s hi e -> set_region_I_idx I lo hi s = (s', Ok tt) ->
  total (fun b => if in_rows (s_Y s) lo e (b_iy b) then b_I b else 0) (s_blocks s') = I * (IZR (e - lo) * IZR (s_Z s)) / (Rmin (region_top s hi + 1) (IZR (s_Y s)) - IZR lo).
Proof. exact region_current. Qed.
Example c52_region_total_ex : region_end ex_s (PInt 2) 2.
Proof. unfold region_end, region_top. cbn [num_val]. destruct (Req_EM_T 2 (-1)); [lra|]. change (s_Y ex_s) with 3%Z. right. repeat split; try lra. right. reflexivity. Qed.
Theorem c52_region_to_the_end : forall I lo s s', built s -> (0 <= lo)%Z -> s_Z s = 1%Z -> set_region_I_idx I lo (PInt (-1)) s = (s', Ok tt) -> (lo <= s_Y s)%Z ->
  total (fun b => if in_rows (s_Y s) lo (s_Y s) (b_iy b) then b_I b else 0) (s_blocks s') = I.
Proof.
  intros I lo s s' B L Z1 H LY. assert (T : region_top s (PInt (-1)) = IZR (s_Y s)) by (unfold region_top; cbn [num_val]; destruct (Req_EM_T (-1) (-1)); [reflexivity|lra]). rewrite (c52_region_total I lo (PInt (-1)) s s' (s_Y s) B); try assumption; try lia.
  - apply (c52_region_currents _ _ _ s _ B) in H. destruct H as (e & _ & _ & N & _). rewrite T in *. rewrite Z1. assert (M : Rmin (IZR (s_Y s) + 1) (IZR (s_Y s)) = IZR (s_Y s)) by (unfold Rmin; destruct (Rle_dec (IZR (s_Y s) + 1) (IZR (s_Y s))); lra). rewrite M in *. rewrite minus_IZR. field. lra.
  - right. rewrite T. split; [lra|]. split; [reflexivity|]. left. reflexivity.
Qed.
Example c52_region_to_the_end_ex : exists s', set_region_I_idx 6 1 (PInt (-1)) ex_s = (s', Ok tt).
Proof.
  eexists. apply (c52_region_currents _ _ _ ex_s _ ex_built). exists 3%Z. unfold region_end, region_top. cbn [num_val]. destruct (Req_EM_T (-1) (-1)); [|lra]. change (s_Y ex_s) with 3%Z. change (s_X ex_s) with 2%Z. split; [right; repeat split; try lra; left; reflexivity|]. split; [lia|]. split; [unfold Rmin; destruct (Rle_dec (3 + 1) 3); lra|]. split; [right; lia|reflexivity].
Qed.
(** A region in the middle of a structure gets less than the requested current. *)
Theorem c52_region_total_refuted : exists s I lo hi s', built s /\ (0 <= lo < hi)%Z /\ (hi < s_Y s)%Z /\ set_region_I_idx I lo (PInt hi) s = (s', Ok tt) /\ total b_I (s_blocks s') <> I.
Proof.
  exists ex_s, 6, 0%Z, 2%Z. eexists. split; [exact ex_built|]. split; [lia|]. split; [reflexivity|]. split; [exact ex_region|]. cbn [s_blocks with_blocks].
  assert (Sh : region_share ex_s 6 0 (PInt 2) = 1). { unfold region_share, region_top. cbn [num_val]. destruct (Req_EM_T 2 (-1)); [lra|]. change (s_Y ex_s) with 3%Z. change (s_X ex_s) with 2%Z. unfold Rmin. destruct (Rle_dec (2 + 1) 3); lra. }
  rewrite Sh, ex_blocks. cbn. lra.
Qed.
Theorem c52_region_by_coordinate : forall I lo hi label s r, set_region_I I lo hi label s = r <->
  (exists z n, ycoords2indx s lo hi = Ok (z, n) /\ r = set_region_I_idx I z n (noted lo label s)) \/ (exists e, ycoords2indx s lo hi = Err e /\ r = (noted lo label s, Err e)).
Proof. exact set_region_I_iff. Qed.
Theorem c52_coordinates : forall s lo hi z n, ycoords2indx s lo hi = Ok (z, n) <->
  s_dy s <> 0 /\ IZR z - 1 < lo / s_dy s <= IZR z /\ (hi = -1 /\ n = s_maxY s \/ hi <> -1 /\ exists e, IZR e - 1 < hi / s_dy s <= IZR e /\ n = PInt e).
Proof. exact ycoords_iff. Qed.
Example c52_coordinates_ex : ycoords2indx ex_s 1 2 = Ok (1%Z, PInt 2).
Proof. apply c52_coordinates. change (s_dy ex_s) with 1. split; [lra|]. split; [lra|]. right. split; [lra|]. exists 2%Z. split; [lra|reflexivity]. Qed.
(** Leaving out the upper coordinate fails for a structure of a float extent below its number of rows. *)
Theorem c52_default_end_fails : forall I lo label s x s', built s -> s_maxY s = PFloat x -> x <> -1 -> x <= IZR (s_Y s) -> set_region_I I lo (-1) label s <> (s', Ok tt).
Proof.
  intros I lo label s x s' B M N L H. apply c52_region_by_coordinate in H. destruct H as [(z & n & Y & E)|(e & _ & E)]; [|discriminate]. apply c52_coordinates in Y. destruct Y as (_ & _ & [[_ ->]|[Q _]]); [|lra]. rewrite M in E.
  assert (B' : built (noted lo label s)) by exact B. symmetry in E. apply (c52_region_currents _ _ _ _ _ B') in E. destruct E as (e & Re & _). unfold region_end, region_top in Re. cbn [num_val] in Re. change (s_Y (noted lo label s)) with (s_Y s) in Re. destruct (Req_EM_T x (-1)); [contradiction|]. destruct Re as [[Q _]|(_ & _ & [Q|Q])]; [lra|contradiction|discriminate].
Qed.
Example c52_default_end_fails_ex : built ex_s /\ s_maxY ex_s = PFloat 3 /\ 3 <> -1 /\ 3 <= IZR (s_Y ex_s).
Proof. split; [exact ex_built|]. split; [reflexivity|]. cbn. lra. Qed.

(** ** Fields *)
(** Every block gains the fields of all other blocks; structures of several layers fail. *)
Theorem c52_computed : forall s s', built s -> compute_blocks s = (s', Ok tt) <->
  (s_Z s = 1 \/ s_X s = 0 \/ s_Y s = 0)%Z /\ s' = with_blocks (map (fun b => add_H (field_at (s_blocks s) b) b) (s_blocks s)) s.
Proof. exact compute_iff. Qed.
Example c52_computed_ex : exists s', built ex_s /\ compute_blocks ex_s = (s', Ok tt).
Proof. eexists. split; [exact ex_built|]. apply (c52_computed _ _ ex_built). split; [left; reflexivity|reflexivity]. Qed.
(** A second computation adds the same fields again. *)
Theorem c52_recomputed : forall s s1 s2, built s -> compute_blocks s = (s1, Ok tt) -> compute_blocks s1 = (s2, Ok tt) -> s2 = with_blocks (map (fun b => add_H (2 * field_at (s_blocks s) b) b) (s_blocks s)) s.
Proof.
  intros s s1 s2 B H1 H2. apply (c52_computed _ _ B) in H1. destruct H1 as [F ->]. set (s1 := with_blocks _ s) in *.
  assert (B1 : built s1). { apply (built_changed s (fun k b => add_H (field_at (s_blocks s) b) b)); [exact B|intros; repeat split; reflexivity|]. intros k. rewrite nth_error_map. reflexivity. }
  apply (c52_computed _ _ B1) in H2. destruct H2 as [_ ->]. unfold s1. cbn [s_blocks with_blocks]. rewrite with_blocks_twice. f_equal. rewrite map_map. apply map_ext. intros b. rewrite add_H_add. f_equal.
  assert (E : field_at (map (fun b => add_H (field_at (s_blocks s) b) b) (s_blocks s)) (add_H (field_at (s_blocks s) b) b) = field_at (s_blocks s) b) by (unfold field_at at 1; rewrite total_map; reflexivity). rewrite E. ring.
Qed.
Example c52_recomputed_ex : exists s1 s2, compute_blocks ex_s = (s1, Ok tt) /\ compute_blocks s1 = (s2, Ok tt).
Proof.
  eexists _, _. split; [apply (c52_computed _ _ ex_built); split; [left; reflexivity|reflexivity]|]. apply c52_computed; [|split; [left; reflexivity|reflexivity]].
  apply (built_changed ex_s (fun k b => add_H (field_at (s_blocks ex_s) b) b)); [exact ex_built|intros; repeat split; reflexivity|]. intros k. rewrite nth_error_map. reflexivity.
Qed.
Theorem c52_region_sum : forall s lo hi h, built s -> get_region_contributions_idx s lo hi = Ok h <->
  let e := Z.min (if (hi =? -1)%Z then s_Y s else hi) (s_Y s) in (s_X s = 0 \/ e <= lo \/ - s_Y s <= lo)%Z /\ h = region_sum s lo e.
Proof. exact region_sum_iff. Qed.
Example c52_region_sum_ex : exists h, get_region_contributions_idx ex_s 1 (-1) = Ok h.
Proof. eexists. apply (c52_region_sum _ _ _ _ ex_built). cbv zeta. split; [right; right; cbn; lia|reflexivity]. Qed.
(** Adjacent regions add up. *)
Theorem c52_regions_add : forall s a b c u v w, built s -> (0 <= a <= b)%Z -> (b <= c <= s_Y s)%Z ->
  get_region_contributions_idx s a b = Ok u -> get_region_contributions_idx s b c = Ok v -> get_region_contributions_idx s a c = Ok w -> w = u + v.
Proof.
  intros s a b c u v w B La Lb Hu Hv Hw. apply (c52_region_sum _ _ _ _ B) in Hu, Hv, Hw. cbv zeta in Hu, Hv, Hw. destruct (Z.eqb_spec b (-1)); [lia|]. destruct (Z.eqb_spec c (-1)); [lia|]. rewrite !Z.min_l in * by lia. destruct Hu as [_ ->], Hv as [_ ->], Hw as [_ ->]. apply region_sum_split. lia.
Qed.
Example c52_regions_add_ex : exists u v w, get_region_contributions_idx ex_s 0 1 = Ok u /\ get_region_contributions_idx ex_s 1 3 = Ok v /\ get_region_contributions_idx ex_s 0 3 = Ok w.
Proof. eexists _, _, _. repeat split; (apply (c52_region_sum _ _ _ _ ex_built); cbv zeta; split; [right; right; cbn; lia|reflexivity]). Qed.
(** The field of the rows of one slice in those of another; the ends must be integers. *)
Theorem c52_contribution : forall s smin smax tmin tmax h, built s -> compute_region_contribution_idx s smin smax tmin tmax = Ok h <->
  exists sm tm, smax = PInt sm /\ tmax = PInt tm /\ (forall o b, In o (rows_of s smin sm) -> In b (rows_of s tmin tm) -> apart o b) /\ h = field_between (rows_of s smin sm) (rows_of s tmin tm).
Proof. exact contribution_iff. Qed.
Lemma flat_apart s o b : built s -> s_Z s = 1%Z -> In o (s_blocks s) -> In b (s_blocks s) -> apart o b.
Proof.
  intros B Z1 Ho Hb E D. pose proof B as (_ & _ & _ & N1 & N2 & _ & F). rewrite Forall_forall in F. destruct (F b Hb) as (S1 & S2 & _). apply distance_zero in D; [|congruence|congruence]. destruct (built_place s o B Ho) as (_ & _ & P). destruct (built_place s b B Hb) as (_ & _ & Q). destruct D as [D1 D2]. assert (D3 : b_iz b = b_iz o) by lia. assert (X : block_eq o b = true) by (apply eq_iff; unfold place; congruence). congruence.
Qed.
Example c52_contribution_ex : exists h, compute_region_contribution_idx ex_s 0 (PInt 1) 1 (PInt 3) = Ok h.
Proof. eexists. apply (c52_contribution _ _ _ _ _ _ ex_built). eexists _, _. split; [reflexivity|]. split; [reflexivity|]. split; [|reflexivity]. intros o b Ho Hb. apply filter_In in Ho, Hb. apply (flat_apart ex_s); try tauto. exact ex_built. Qed.
Theorem c52_contribution_by_coordinate : forall s a b c d h, compute_region_contribution s a b c d = Ok h <->
  exists smin smax tmin tmax, ycoords2indx s a b = Ok (smin, smax) /\ ycoords2indx s c d = Ok (tmin, tmax) /\ compute_region_contribution_idx s smin smax tmin tmax = Ok h.
Proof.
  intros. unfold compute_region_contribution. destruct (ycoords2indx s a b) as [[smin smax]|e]; [|split; [discriminate|intros (? & ? & ? & ? & E & _); discriminate]]. cbn [rbind]. destruct (ycoords2indx s c d) as [[tmin tmax]|e]; [|split; [discriminate|intros (? & ? & ? & ? & _ & E & _); discriminate]]. cbn [rbind].
  split; [intros H; exists smin, smax, tmin, tmax; tauto|]. intros (? & ? & ? & ? & E & G & H). injection E as <- <-. injection G as <- <-. exact H.
Qed.
(** The two ways to find the field of a whole flat structure in a region agree. *)
Theorem c52_contributions_agree : forall s s' lo hi h, built s -> (forall b, In b (s_blocks s) -> b_H b = 0) -> compute_blocks s = (s', Ok tt) -> (0 <= lo <= s_Y s)%Z -> (0 <= hi <= s_Y s)%Z ->
  get_region_contributions_idx s' lo hi = Ok h <-> compute_region_contribution_idx s 0 (PInt (s_Y s)) lo (PInt hi) = Ok h.
Proof. exact contributions_agree. Qed.
Example c52_contributions_agree_ex : built ex_s /\ (forall b, In b (s_blocks ex_s) -> b_H b = 0) /\ (exists s', compute_blocks ex_s = (s', Ok tt)).
Proof. split; [exact ex_built|]. split; [intros b Hb; apply fresh_zero in Hb; tauto|]. destruct c52_computed_ex as (s' & _ & H). exists s'. exact H. Qed.
(** The end -1 means the end of the structure for sums, but leaves out the last row of a slice. *)
Theorem c52_last_row_refuted : exists s b, built s /\ In b (s_blocks s) /\ ~ In b (rows_of s 0 (-1)) /\ rows_of s 0 (s_Y s) = s_blocks s.
Proof.
  exists ex_s, (newBlock 0 2 0 1 1 1). split; [exact ex_built|]. split; [rewrite ex_blocks; cbn; tauto|]. split; [|reflexivity]. intros H. apply filter_In in H. destruct H as [_ H]. cbn in H. discriminate.
Qed.
Theorem c52_shown : forall s x y b, built s -> In b (s_blocks s) -> b_ix b = x -> b_iy b = y -> (b_iz b + 1 = s_Z s)%Z -> show_field s x y = b_H b.
Proof. exact show_ok. Qed.
Example c52_shown_ex : let b := newBlock 1 2 0 1 1 1 in In b (s_blocks ex_s) /\ (b_iz b + 1 = s_Z ex_s)%Z.
Proof. cbv zeta. rewrite ex_blocks. split; [cbn; tauto|reflexivity]. Qed.
(** One block per cell, always. *)
Theorem c52_stays_built : forall s s', built s -> ((exists I lo hi, set_region_I_idx I lo hi s = (s', Ok tt)) \/ compute_blocks s = (s', Ok tt)) -> built s'.
Proof.
  intros s s' B [(I & lo & hi & H)|H].
  - apply (c52_region_currents _ _ _ _ _ B) in H. destruct H as (e & _ & _ & _ & _ & ->). apply (built_changed s (fun k b => if in_rows (s_Y s) lo e (b_iy b) then set_I (region_share s I lo hi) b else b)); [exact B|intros k b; destruct (in_rows _ _ _ _); repeat split; reflexivity|]. intros k. rewrite nth_error_map. reflexivity.
  - apply (c52_computed _ _ B) in H. destruct H as [_ ->]. apply (built_changed s (fun k b => add_H (field_at (s_blocks s) b) b)); [exact B|intros; repeat split; reflexivity|]. intros k. rewrite nth_error_map. reflexivity.
Qed.
Example c52_stays_built_ex : built ex_s /\ exists s', compute_blocks ex_s = (s', Ok tt).
Proof. split; [exact ex_built|]. destruct c52_computed_ex as (s' & _ & H). exists s'. exact H. Qed.
Print Assumptions c52_ampere.
Print Assumptions c52_ampere_law_refuted.
Print Assumptions c52_reciprocal.
Print Assumptions c52_biot_savart.
Print Assumptions c52_block_updates.
Print Assumptions c52_same_block.
Print Assumptions c52_squared_distance.
Print Assumptions c52_created.
Print Assumptions c52_cells.
Print Assumptions c52_created_built.
Print Assumptions c52_reset.
Print Assumptions c52_region_currents.
Print Assumptions c52_region_failure_keeps.
Print Assumptions c52_region_total.
Print Assumptions c52_region_to_the_end.
Print Assumptions c52_region_total_refuted.
Print Assumptions c52_region_by_coordinate.
Print Assumptions c52_coordinates.
Print Assumptions c52_default_end_fails.
Print Assumptions c52_computed.
Print Assumptions c52_recomputed.
Print Assumptions c52_region_sum.
Print Assumptions c52_regions_add.
Print Assumptions c52_contribution.
Print Assumptions c52_contribution_by_coordinate.
Print Assumptions c52_contributions_agree.
Print Assumptions c52_last_row_refuted.
Print Assumptions c52_shown.
Print Assumptions c52_stays_built.
