(** C89: the geometry of the figures. *)
From Verif Require Import P_Plot.
From Coq Require Import Psatz Sorted.
Open Scope R_scope.
Open Scope st_scope.

(** ** The sphere *)
Theorem c89_sphere i j p : (exists row, nth_error get_sphere i = Some row /\ nth_error row j = Some p) <->
  (i < 100)%nat /\ (j < 100)%nat /\ p = CV (sin (INR i * PI / 99) * cos (INR j * 2 * PI / 99)) (sin (INR i * PI / 99) * sin (INR j * 2 * PI / 99)) (cos (INR i * PI / 99)).
Proof.
  assert (E : sphere_point i j = CV (sin (INR i * PI / 99) * cos (INR j * 2 * PI / 99)) (sin (INR i * PI / 99) * sin (INR j * 2 * PI / 99)) (cos (INR i * PI / 99))).
  { unfold sphere_point. cbv zeta. replace (INR i * (PI / 99)) with (INR i * PI / 99) by field. replace (INR j * (2 * PI / 99)) with (INR j * 2 * PI / 99) by field. reflexivity. }
  split.
  - intros (row & A & B). destruct (sphere_grid i j row p A B) as (I & J & ->). rewrite E. auto.
  - intros (I & J & ->). rewrite <- E. exact (sphere_all i j I J).
Qed.
Theorem c89_sphere_unit i j row p : nth_error get_sphere i = Some row -> nth_error row j = Some p -> len2 p = 1.
Proof. intros A B. destruct (sphere_grid i j row p A B) as (_ & _ & ->). apply sphere_unit. Qed.
(** The mesh closes: the first and the last meridian agree, and the first and the last row are the poles. *)
Theorem c89_sphere_closed i j : sphere_point i 0 = sphere_point i 99 /\ sphere_point 0 j = CV 0 0 1 /\ sphere_point 99 j = CV 0 0 (-1).
Proof. exact (sphere_seam i j). Qed.

(** ** Trajectories *)
(** The points are divided by the norm of all of them together. *)
Theorem c89_trajectory x y z out : plot_trajectory_sphere x y z = Ok out <->
  exists ps, coordinates x y z ps /\ (ps = [] \/ sum_len2 ps <> 0) /\ out = map (shrink (1 / sqrt (sum_len2 ps))) ps.
Proof. exact (trajectory_iff x y z out). Qed.
(** A trajectory of constant length is drawn on a sphere of radius one over the root of the number of its points. *)
Theorem c89_trajectory_radius x y z ps out rho : coordinates x y z ps -> plot_trajectory_sphere x y z = Ok out -> 0 < rho -> (forall p, In p ps -> len2 p = rho) ->
  forall q, In q out -> len2 q = 1 / INR (length ps).
Proof. exact (trajectory_radius x y z ps out rho). Qed.
Example c89_trajectory_example : exists out, plot_trajectory_sphere [1; 0; 0; 0] [0; 1; 0; -1] [0; 0; 1; 0] = Ok out /\ nth_error out 1 = Some (CV 0 (1 / 2) 0).
Proof.
  assert (S : sum_len2 [CV 1 0 0; CV 0 1 0; CV 0 0 1; CV 0 (-1) 0] = 4) by (unfold sum_len2, len2; cbn; ring). assert (Q : sqrt 4 = 2) by (replace 4 with (2 * 2) by ring; apply sqrt_square; lra).
  exists (map (shrink (1 / sqrt (sum_len2 [CV 1 0 0; CV 0 1 0; CV 0 0 1; CV 0 (-1) 0]))) [CV 1 0 0; CV 0 1 0; CV 0 0 1; CV 0 (-1) 0]). split.
  - apply c89_trajectory. eexists. split; [|split; [right; rewrite S; lra|reflexivity]]. repeat split.
  - rewrite S, Q. cbn. unfold shrink. cbn. f_equal. f_equal; field.
Qed.
(** The docstring promises the unit sphere: false for every trajectory of at least two points of one length. *)
Theorem c89_unit_refuted x y z ps out rho : coordinates x y z ps -> (2 <= length ps)%nat -> 0 < rho -> (forall p, In p ps -> len2 p = rho) -> plot_trajectory_sphere x y z = Ok out -> forall q, In q out -> len2 q < 1.
Proof.
  intros C N P H E q Q. rewrite (trajectory_radius x y z ps out rho C E P H q Q). apply (lt_INR 1) in N. cbn [INR] in N. apply (Rmult_lt_reg_r (INR (length ps))); [lra|]. replace (1 / INR (length ps) * INR (length ps)) with 1 by (field; lra). lra.
Qed.
Example c89_unit_refuted_example : coordinates [1; 0] [0; 1] [0; 0] [CV 1 0 0; CV 0 1 0] /\ (forall p, In p [CV 1 0 0; CV 0 1 0] -> len2 p = 1) /\ exists out, plot_trajectory_sphere [1; 0] [0; 1] [0; 0] = Ok out.
Proof.
  split; [repeat split|]. split; [intros p [<-|[<-|[]]]; unfold len2; cbn; ring|]. eexists. apply c89_trajectory. exists [CV 1 0 0; CV 0 1 0]. split; [repeat split|]. split; [right|reflexivity]. unfold sum_len2, len2. cbn. lra.
Qed.
(** The coloured trajectory joins consecutive points, as given. *)
Theorem c89_coloured x y z segs : plot_coloured_trajectory x y z = Ok segs <-> exists ps, coordinates x y z ps /\ length segs = (length ps - 1)%nat /\
  forall k p q, nth_error segs k = Some (p, q) <-> nth_error ps k = Some p /\ nth_error ps (S k) = Some q.
Proof. exact (coloured_iff x y z segs). Qed.
Example c89_coloured_example : plot_coloured_trajectory [1; 2; 3] [4; 5; 6] [7; 8; 9] = Ok [(CV 1 4 7, CV 2 5 8); (CV 2 5 8, CV 3 6 9)].
Proof. reflexivity. Qed.
(** It is not normalised either. *)
Theorem c89_coloured_unit_refuted : exists x y z p q, plot_coloured_trajectory x y z = Ok [(p, q)] /\ len2 p = 4 /\ len2 q = 4.
Proof. exists [2; 0], [0; 2], [0; 0], (CV 2 0 0), (CV 0 2 0). split; [reflexivity|]. unfold len2. cbn. split; ring. Qed.

(** ** Maps *)
(** The indices visited: each selection without repetition once, in lexicographic order. *)
Theorem c89_visited n r : (forall idx, In idx (permutations n r) <-> selection n r idx) /\ StronglySorted lex (permutations n r) /\ NoDup (permutations n r) /\ length (permutations n r) = falling n r.
Proof. split; [exact (permutations_iff n r)|]. split; [apply permutations_sorted|]. split; [apply sorted_nodup, permutations_sorted|apply permutations_length]. Qed.
Example c89_visited_example : permutations 3 2 = [[0; 1]; [0; 2]; [1; 0]; [1; 2]; [2; 0]; [2; 1]]%nat.
Proof. reflexivity. Qed.
(** One column per axis and one of values, entry by entry the coordinates of the index and the value of the map there. *)
Theorem c89_unpack m axes lists values : unpack_ndim_map m axes = Ok (lists, values) <->
  exists first, nth_error axes 0 = Some first /\ (forall idx, selection (length first) (length axes) idx -> fits m axes idx) /\
  lists = map (fun k => map (fun idx => nth (nth k idx 0%nat) (nth k axes []) 0) (permutations (length first) (length axes))) (seq 0 (length axes)) /\
  values = map (nd_data m) (permutations (length first) (length axes)).
Proof. exact (unpack_iff m axes lists values). Qed.
(** It answers exactly when no axis and no dimension of the map is shorter than the first axis, or when the first axis is too short for any selection. *)
Theorem c89_unpack_defined m axes : (exists out, unpack_ndim_map m axes = Ok out) <-> exists first, nth_error axes 0 = Some first /\
  (length first < length axes \/ (length (nd_shape m) = length axes /\ (forall d, In d (nd_shape m) -> (length first <= d)%nat) /\ forall a, In a axes -> (length first <= length a)%nat))%nat.
Proof. exact (unpack_ok m axes). Qed.
Example c89_unpack_example : unpack_ndim_map (ND [2; 2]%nat (fun idx => INR (10 * nth 0 idx 0 + nth 1 idx 0)%nat)) [[5; 6]; [7; 8]] = Ok ([[5; 6]; [8; 7]], [INR 1; INR 10]).
Proof. reflexivity. Qed.
(** All the entries of the map are visited exactly with at most one axis or with an empty first axis. *)
Theorem c89_complete n r : (forall idx, length idx = r -> (forall i, In i idx -> (i < n)%nat) -> In idx (permutations n r)) <-> (r <= 1)%nat \/ n = 0%nat.
Proof. exact (cells_iff n r). Qed.
Theorem c89_diagonal_refuted : exists m axes lists values, unpack_ndim_map m axes = Ok (lists, values) /\ nd_data m [1; 1]%nat = 7 /\ ~ In 7 values.
Proof.
  exists (ND [2; 2]%nat (fun idx => if Nat.eqb (nth 0 idx 0%nat) (nth 1 idx 0%nat) then 7 else 1)), [[5; 6]; [7; 8]]. eexists. eexists. split; [reflexivity|]. split; [reflexivity|]. cbn. intros [H|[H|[]]]; lra.
Qed.

(** ** Parallel coordinates *)
(** Each axis is five percent longer than the values on it, below and above. *)
Theorem c89_limits l a b : l <> [] -> (limits l = (a, b) <-> exists lo hi, least_of l lo /\ greatest_of l hi /\ a = lo - (hi - lo) / 20 /\ b = hi + (hi - lo) / 20).
Proof. exact (limits_iff l a b). Qed.
(** Every value is drawn on the main axis at the fraction it has of its own axis. *)
Theorem c89_scaled ys width zs : scale_rows ys width = Ok zs <-> ys <> [] /\ Forall2 (fun row z => length z = width /\ forall c lo hi lo0 hi0, (c < width)%nat ->
  least_of (column ys c) lo -> greatest_of (column ys c) hi -> least_of (column ys 0) lo0 -> greatest_of (column ys 0) hi0 ->
  (c = 0%nat -> nth c z 0 = nth 0 row 0) /\ (c <> 0%nat -> lo <> hi /\ nth c z 0 = lo0 + (nth c row 0 - lo) / (hi - lo) * (hi0 - lo0))) ys zs.
Proof. exact (scale_rows_iff ys width zs). Qed.
(** A finite picture exactly when no column but the first is constant. *)
Theorem c89_scaled_defined ys width : (exists zs, scale_rows ys width = Ok zs) <-> ys <> [] /\ forall c lo hi, (0 < c < width)%nat -> least_of (column ys c) lo -> greatest_of (column ys c) hi -> lo <> hi.
Proof. exact (scale_rows_ok ys width). Qed.
Theorem c89_scaled_inside ys width zs j row z c lo0 hi0 : scale_rows ys width = Ok zs -> nth_error ys j = Some row -> nth_error zs j = Some z -> (c < width)%nat -> least_of (column ys 0) lo0 -> greatest_of (column ys 0) hi0 -> lo0 <= nth c z 0 <= hi0.
Proof. exact (scaled_inside ys width zs j row z c lo0 hi0). Qed.
Example c89_scaled_example : exists zs, scale_rows [[0; 10]; [4; 30]; [2; 15]] 2 = Ok zs /\ nth 1 (nth 2 zs []) 0 = 1.
Proof.
  assert (A : least_of (column [[0; 10]; [4; 30]; [2; 15]] 1) 10) by (split; [left; reflexivity|intros w [<-|[<-|[<-|[]]]]; cbn; lra]). assert (B : greatest_of (column [[0; 10]; [4; 30]; [2; 15]] 1) 30) by (split; [right; left; reflexivity|intros w [<-|[<-|[<-|[]]]]; cbn; lra]).
  assert (A0 : least_of (column [[0; 10]; [4; 30]; [2; 15]] 0) 0) by (split; [left; reflexivity|intros w [<-|[<-|[<-|[]]]]; cbn; lra]). assert (B0 : greatest_of (column [[0; 10]; [4; 30]; [2; 15]] 0) 4) by (split; [right; left; reflexivity|intros w [<-|[<-|[<-|[]]]]; cbn; lra]).
  destruct (proj2 (c89_scaled_defined [[0; 10]; [4; 30]; [2; 15]] 2)) as [zs E].
  - split; [discriminate|]. intros c lo hi C L G. replace c with 1%nat in L, G by lia. rewrite (least_unique _ _ _ L A), (greatest_unique _ _ _ G B). lra.
  - exists zs. split; [exact E|]. apply c89_scaled in E. destruct E as [_ F]. inversion F as [|? z0 ? l0 _ F0]; subst. inversion F0 as [|? z1 ? l1 _ F1]; subst. inversion F1 as [|? z2 ? l2 H2 _]; subst. destruct H2 as [_ H2]. destruct (H2 1%nat _ _ _ _ ltac:(lia) A B A0 B0) as [_ H]. destruct (H ltac:(discriminate)) as [_ V]. cbn [nth] in V |- *. rewrite V. lra.
Qed.
(** The control points of a curve: k thirds along, at the height of the nearest axis; as many as the shorter of three points per row of the table and three per column, less two. *)
Theorem c89_curve n zs ps : curve_points n zs = Ok ps <-> (1 <= n)%nat /\ length ps = Nat.min (3 * n - 2) (3 * length zs - 2) /\ forall k p, nth_error ps k = Some p -> fst p = INR k / 3 /\ nth_error zs ((k + 1) / 3) = Some (snd p).
Proof. exact (curve_iff n zs ps). Qed.
(** The curve reaches the last axis exactly when there are at least as many rows as columns. *)
Theorem c89_curve_ends n zs ps z : curve_points n zs = Ok ps -> nth_error zs (length zs - 1) = Some z -> (In (INR (length zs - 1), z) ps <-> (length zs <= n)%nat).
Proof.
  intros E Z. apply c89_curve in E. destruct E as (N & L & H). assert (P : (0 < length zs)%nat) by (destruct zs; [discriminate|cbn; lia]). split.
  - intros I. apply In_nth_error in I. destruct I as [k K]. assert (B : (k < length ps)%nat) by (apply nth_error_Some; congruence). destruct (H _ _ K) as [X _]. cbn [fst] in X. assert (Q : INR k = INR (3 * (length zs - 1))) by (rewrite mult_INR; replace (INR 3) with 3 by (cbn [INR]; lra); lra). apply INR_eq in Q. lia.
  - intros B. assert (K : (3 * (length zs - 1) < length ps)%nat) by lia. apply nth_error_Some in K. destruct (nth_error ps (3 * (length zs - 1))) as [[u v]|] eqn:Q; [|congruence]. destruct (H _ _ Q) as [X Y]. cbn [fst snd] in *. rewrite mult_INR in X. replace (INR 3) with 3 in X by (cbn [INR]; lra). replace ((3 * (length zs - 1) + 1) / 3)%nat with (length zs - 1)%nat in Y by (rewrite (Nat.mul_comm 3), Nat.add_comm, Nat.div_add by lia; cbn; lia). rewrite Z in Y. injection Y as ->. apply nth_error_In in Q. replace (INR (length zs - 1)) with u by lra. exact Q.
Qed.
Example c89_curve_example : exists ps, curve_points 2 [10; 20] = Ok ps /\ map snd ps = [10; 10; 20; 20] /\ In (1, 20) ps.
Proof.
  destruct (P_Geom.linspace_ok 0 (INR 2 - 1) 4 ltac:(lia)) as (xs & X & E). exists (combine xs [10; 10; 20; 20]). assert (C : curve_points 2 [10; 20] = Ok (combine xs [10; 10; 20; 20])) by (unfold curve_points; change (Z.of_nat 2 * 3 - 2)%Z with 4%Z; rewrite X; reflexivity). split; [exact C|]. split.
  - destruct E as (L & _). do 5 (destruct xs as [|? xs]; try discriminate). reflexivity.
  - replace 1 with (INR (length [10; 20] - 1)) by (cbn; reflexivity). apply (c89_curve_ends 2 [10; 20] _ 20 C eq_refl). cbn. lia.
Qed.
Theorem c89_curve_refuted n zs ps z : (n < length zs)%nat -> curve_points n zs = Ok ps -> nth_error zs (length zs - 1) = Some z -> ~ In (INR (length zs - 1), z) ps.
Proof. intros B E Z I. apply (c89_curve_ends n zs ps z E Z) in I. lia. Qed.
Example c89_curve_refuted_example : exists ps, curve_points 1 [10; 20] = Ok ps /\ ~ In (1, 20) ps.
Proof.
  destruct (P_Geom.linspace_ok 0 (INR 1 - 1) 1 ltac:(lia)) as (xs & X & _). eexists. assert (C : curve_points 1 [10; 20] = Ok (combine xs [10; 10; 20; 20])) by (unfold curve_points; change (Z.of_nat 1 * 3 - 2)%Z with 1%Z; rewrite X; reflexivity). split; [exact C|]. exact (c89_curve_refuted 1 [10; 20] _ 20 ltac:(cbn; lia) C eq_refl).
Qed.

(** ** Stacks *)
(** Rectangles upon each other from the offset upwards, a label half way up each, an arrow of length r through a point half way up each layer with an angle, and limits with half the width and half the tallest layer to spare; no layers are refused. *)
Theorem c89_stack {C L} (colors : list C) heights angles (labels : list L) w pad ox oy r rv sp : create_stack colors heights angles labels w pad ox oy r rv = Ok sp <->
  exists top biggest, stacked w pad ox r (flip rv heights) (flip rv angles) (flip rv colors) (flip rv labels) oy (sp_rects sp) (sp_texts sp) (sp_arrows sp) top /\ greatest_of heights biggest /\
  sp_xlim sp = (ox - w / 2, ox + 3 * w / 2) /\ sp_ylim sp = (oy - biggest / 2, top + biggest / 2).
Proof. exact (stack_iff colors heights angles labels w pad ox oy r rv sp). Qed.
(** Each layer starts where the one below ends. *)
Theorem c89_stack_adjacent {C L} (colors : list C) heights angles (labels : list L) w pad ox oy r rv sp k x y u h c x' y' u' h' c' : create_stack colors heights angles labels w pad ox oy r rv = Ok sp ->
  nth_error (sp_rects sp) k = Some (x, y, u, h, c) -> nth_error (sp_rects sp) (S k) = Some (x', y', u', h', c') -> x' = x /\ u' = u /\ y' = y + h.
Proof.
  intros E A B. apply c89_stack in E. destruct E as (top & big & (S & _) & _). apply S in A, B. destruct A as (h1 & a1 & c1 & l1 & (Z & _) & A), B as (h2 & a2 & c2 & l2 & _ & B). injection A as -> -> -> -> ->. injection B as -> -> -> -> ->. split; [reflexivity|]. split; [reflexivity|].
  assert (X : forall hs j v, nth_error hs j = Some v -> sum_to (Datatypes.S j) hs = sum_to j hs + v). { induction hs as [|a hs IH]; intros [|j] v V; try discriminate; [injection V as ->; unfold sum_to; cbn; ring|]. rewrite !sum_to_S, (IH j v V). ring. } rewrite (X _ _ _ Z). ring.
Qed.
Example c89_stack_example : exists sp, create_stack ["a"; "b"]%string [1; 2] [Some 90; None] ["A"; "B"]%string 2 (1 / 5) 0 0 (3 / 5) true = Ok sp /\
  sp_rects sp = [(0, 0, 2, 2, "b"%string); (0, 0 + 2, 2, 1, "a"%string)] /\ length (sp_arrows sp) = 1%nat.
Proof. eexists. split; [reflexivity|]. split; reflexivity. Qed.
(** An arrow is half way across its layer exactly when the stack is not offset sideways. *)
Theorem c89_arrow_centred {C L} (colors : list C) heights angles (labels : list L) w pad ox oy r rv sp e : create_stack colors heights angles labels w pad ox oy r rv = Ok sp -> In e (sp_arrows sp) ->
  (fst (middle e) = ox + w / 2 <-> ox = 0) /\ fst (extent e) * fst (extent e) + snd (extent e) * snd (extent e) = r * r.
Proof.
  intros E I. apply c89_stack in E. destruct E as (top & big & (_ & _ & (groups & G & Q) & _) & _). rewrite G in I. apply in_concat in I. destruct I as (g & I & J). apply In_nth_error in I. destruct I as [k K]. apply Q in K. destruct K as (h & a & c & l & _ & M). destruct a as [d|]; [|subst g; destruct J]. destruct M as (f & -> & M & X). destruct J as [<-|[]]. rewrite M, X. cbn [fst snd]. split; [split; lra|].
  assert (T := sin2_cos2 (d * PI / 180)). unfold Rsqr in T. set (s := sin _) in *. set (t := cos _) in *. replace (r * t * (r * t) + r * s * (r * s)) with (r * r * (s * s + t * t)) by ring. rewrite T. ring.
Qed.
Theorem c89_arrow_refuted : exists (sp : stack_plot nat nat) e, create_stack [1%nat] [1] [Some 0] [1%nat] 2 (1 / 5) 5 0 (3 / 5) true = Ok sp /\ In e (sp_arrows sp) /\ fst (middle e) < 5.
Proof.
  eexists. eexists. split; [reflexivity|]. split; [left; reflexivity|]. cbn. lra.
Qed.
Print Assumptions c89_sphere.
Print Assumptions c89_sphere_unit.
Print Assumptions c89_sphere_closed.
Print Assumptions c89_trajectory.
Print Assumptions c89_trajectory_radius.
Print Assumptions c89_unit_refuted.
Print Assumptions c89_coloured.
Print Assumptions c89_coloured_unit_refuted.
Print Assumptions c89_visited.
Print Assumptions c89_unpack.
Print Assumptions c89_unpack_defined.
Print Assumptions c89_complete.
Print Assumptions c89_diagonal_refuted.
Print Assumptions c89_limits.
Print Assumptions c89_scaled.
Print Assumptions c89_scaled_defined.
Print Assumptions c89_scaled_inside.
Print Assumptions c89_curve.
Print Assumptions c89_curve_ends.
Print Assumptions c89_curve_refuted.
Print Assumptions c89_stack.
Print Assumptions c89_stack_adjacent.
Print Assumptions c89_arrow_centred.
Print Assumptions c89_arrow_refuted.
