(** Proofs about the gradient descents of the Smit-Beljers solver. *)
From Verif Require Export S_SB.
From Verif Require Import P_Sym P_Resist P_SB.
From Coq Require Import Psatz FunctionalExtensionality.
Open Scope R_scope.
Open Scope st_scope.

Lemma Sigma_scal n k f : Sigma n (fun i => k * f i) = k * Sigma n f.
Proof. induction n as [|n IH]; cbn [Sigma]; [ring|rewrite IH; ring]. Qed.
Lemma ema_nil b : ema b [] = 0.
Proof. reflexivity. Qed.
Lemma ema_snoc b xs x : ema b (xs ++ [x]) = b * ema b xs + (1 - b) * x.
Proof.
  unfold ema. rewrite app_length, Nat.add_1_r. cbn [Sigma]. rewrite nth_middle. replace (S (length xs) - 1 - length xs)%nat with 0%nat by lia.
  rewrite <- Sigma_scal. f_equal; [|cbn; ring]. apply Sigma_ext. intros i Hi. rewrite app_nth1 by exact Hi.
  replace (S (length xs) - 1 - i)%nat with (S (length xs - 1 - i)) by lia. cbn [pow]. ring.
Qed.
Lemma component_snoc c gs g : component c (gs ++ [g]) = component c gs ++ [nth c g 0].
Proof. unfold component. rewrite map_app. reflexivity. Qed.
Lemma component_len c gs : length (component c gs) = length gs.
Proof. apply map_length. Qed.

(** lists as functions of the coordinate *)
Definition coords (d : nat) (f : nat -> R) : list R := map f (seq 0 d).
Lemma coords_len d f : length (coords d f) = d.
Proof. unfold coords. rewrite map_length, seq_length. reflexivity. Qed.
Lemma coords_nth d f c : (c < d)%nat -> nth c (coords d f) 0 = f c.
Proof. intros H. unfold coords. rewrite nth_indep with (d' := f 0%nat) by (rewrite map_length, seq_length; exact H). rewrite map_nth, seq_nth by exact H. reflexivity. Qed.
Lemma coords_eta l : l = coords (length l) (fun c => nth c l 0).
Proof. apply nth_ext with (d := 0) (d' := 0); [rewrite coords_len; reflexivity|]. intros n H. rewrite coords_nth by exact H. reflexivity. Qed.
Lemma coords_ext d f g : (forall c, (c < d)%nat -> f c = g c) -> coords d f = coords d g.
Proof. intros H. unfold coords. apply map_ext_in. intros a Ha. apply in_seq in Ha. apply H. lia. Qed.
Lemma map_coords (h : R -> R) d f : map h (coords d f) = coords d (fun c => h (f c)).
Proof. unfold coords. rewrite map_map. reflexivity. Qed.
Lemma map2_coords {C} (h : R -> R -> C) d f g : map2 h (coords d f) (coords d g) = map (fun c => h (f c) (g c)) (seq 0 d).
Proof. unfold map2, coords. induction (seq 0 d) as [|x xs IH]; [reflexivity|]. cbn. f_equal. exact IH. Qed.
Lemma all_ok_iff {X} (f : nat -> result X) (d : nat) (ys : list X) (x0 : X) :
  all_ok (map f (seq 0 d)) = Ok ys <-> length ys = d /\ forall c, (c < d)%nat -> f c = Ok (nth c ys x0).
Proof.
  enough (forall a ys, all_ok (map f (seq a d)) = Ok ys <-> length ys = d /\ forall c, (c < d)%nat -> f (a + c)%nat = Ok (nth c ys x0)) as H by apply (H 0%nat).
  induction d as [|d IH]; intros a zs.
  - cbn. split; [intros H; injection H as <-; split; [reflexivity|intros; lia]|]. intros [H _]. destruct zs; [reflexivity|discriminate].
  - cbn [seq map all_ok]. split.
    + intros H. apply rbind_iff in H. destruct H as [y [Hy H]]. apply rbind_iff in H. destruct H as [rest [Hr H]]. injection H as <-. apply IH in Hr. destruct Hr as [L Hr].
      split; [cbn; rewrite L; reflexivity|]. intros [|c] Hc; [rewrite Nat.add_0_r; exact Hy|]. rewrite Nat.add_succ_r. apply Hr. lia.
    + intros [L H]. destruct zs as [|z zs]; [discriminate|]. pose proof (H 0%nat ltac:(lia)) as H0. rewrite Nat.add_0_r in H0. rewrite H0. cbn [nth rbind].
      apply rbind_iff. exists zs. split; [|reflexivity]. apply IH. split; [cbn in L; lia|]. intros c Hc. specialize (H (S c) ltac:(lia)). rewrite Nat.add_succ_r in H. exact H.
Qed.
Lemma fold_squares f n : forall z, fold_left (fun a y => a + y ^ 2) (map f (seq 0 n)) z = z + Sigma n (fun c => square (f c)).
Proof. induction n as [|n IH]; intros z; [cbn; ring|]. rewrite seq_S, map_app, fold_left_app, IH. cbn [fold_left map Sigma]. unfold square. cbn [Nat.add]. ring. Qed.
Lemma norm_distance x y : length x = length y -> fast_norm (map2 Rminus x y) = distance x y.
Proof.
  intros L. unfold fast_norm, distance. f_equal. rewrite (coords_eta x) at 1. rewrite (coords_eta y) at 1. rewrite <- L, map2_coords, fold_squares. ring.
Qed.

(** ** A loop over the history of gradients *)
Fixpoint hist_loop (next : list (list R) -> list R -> result (list R)) (grad : list R -> result (list R)) (tol : R) (more : nat) (gs : list (list R)) (pos : list R) : result (list R) :=
  g <-- grad pos ;;
  if negb (Nat.eqb (length g) (length pos)) then Err (Throw "operands could not be broadcast together")
  else
    new <-- next (gs ++ [g]) pos ;;
    match more with
    | O => Ok pos
    | S more => if Rlt_dec (distance pos new) tol then Ok pos else hist_loop next grad tol more (gs ++ [g]) new
    end.
Lemma hist_loop_iff next (N : list (list R) -> list R -> list R -> Prop) grad tol : (forall gs x y, next gs x = Ok y <-> N gs x y) -> (forall gs x y, N gs x y -> length y = length x) ->
  forall more gs pos r, hist_loop next grad tol more gs pos = Ok r <->
  exists xs hs, length hs = length xs /\ (0 < length xs <= S more)%nat /\ nth 0 xs [] = pos /\ nth (length xs - 1) xs [] = r /\
  (forall k, (k < length xs)%nat -> grad (nth k xs []) = Ok (nth k hs []) /\ length (nth k hs []) = length pos) /\
  (forall k, (S k < length xs)%nat -> N (gs ++ firstn (S k) hs) (nth k xs []) (nth (S k) xs []) /\ tol <= distance (nth k xs []) (nth (S k) xs [])) /\
  exists y, N (gs ++ hs) r y /\ (length xs = S more \/ distance r y < tol).
Proof.
  intros HN HL more. induction more as [|more IH]; intros gs pos r.
  - cbn [hist_loop]. split.
    + intros H. apply rbind_iff in H. destruct H as [g [Hg H]]. destruct (Nat.eqb_spec (length g) (length pos)) as [L|]; [|discriminate]. cbn [negb] in H.
      apply rbind_iff in H. destruct H as [y [Hy H]]. injection H as <-. exists [pos], [g]. cbn. repeat split; try lia.
      * destruct k; [exact Hg|lia].
      * destruct k; [exact L|lia].
      * exists y. split; [apply HN; exact Hy|left; reflexivity].
    + intros (xs & hs & L & B & P0 & Pr & G & _ & y & Hy & _). destruct xs as [|x [|x' xs]]; cbn in B; try lia. destruct hs as [|g [|g' hs]]; cbn in L; try lia. cbn in P0, Pr. subst x r.
      destruct (G 0%nat ltac:(cbn; lia)) as [G1 G2]. cbn in G1, G2. rewrite G1. cbn [rbind]. rewrite G2, Nat.eqb_refl. cbn [negb]. apply HN in Hy. rewrite Hy. reflexivity.
  - cbn [hist_loop]. split.
    + intros H. apply rbind_iff in H. destruct H as [g [Hg H]]. destruct (Nat.eqb_spec (length g) (length pos)) as [L|]; [|discriminate]. cbn [negb] in H.
      apply rbind_iff in H. destruct H as [y [Hy H]]. apply HN in Hy. destruct (Rlt_dec (distance pos y) tol) as [Hd|Hd].
      * injection H as <-. exists [pos], [g]. cbn. repeat split; try lia.
        -- destruct k; [exact Hg|lia].
        -- destruct k; [exact L|lia].
        -- exists y. split; [exact Hy|right; exact Hd].
      * apply IH in H. destruct H as (xs & hs & L' & B & P0 & Pr & G & S' & z & Hz & E). exists (pos :: xs), (g :: hs). cbn [length]. pose proof (HL _ _ _ Hy) as Ly. repeat split; try lia.
        -- rewrite <- Pr. replace (S (length xs) - 1)%nat with (S (length xs - 1)) by lia. reflexivity.
        -- destruct k; [exact Hg|]. cbn [nth]. apply G. lia.
        -- destruct k; [exact L|]. cbn [nth]. rewrite <- Ly. apply G. lia.
        -- destruct k; cbn [nth firstn]. rewrite P0. exact Hy. specialize (S' k ltac:(lia)). rewrite <- app_assoc in S'. apply S'.
        -- destruct k; cbn [nth]. rewrite P0. lra. apply S'. lia.
        -- exists z. rewrite <- app_assoc in Hz. split; [exact Hz|]. destruct E as [E|E]; [left; lia|right; exact E].
    + intros (xs & hs & L & B & P0 & Pr & G & S' & y & Hy & E). destruct xs as [|x xs]; cbn in B; try lia. destruct hs as [|g hs]; cbn in L; try lia. cbn [nth] in P0. subst x.
      destruct (G 0%nat ltac:(cbn; lia)) as [G1 G2]. cbn [nth] in G1, G2. rewrite G1. cbn [rbind]. rewrite G2, Nat.eqb_refl. cbn [negb].
      destruct xs as [|x xs].
      * destruct hs as [|h hs]; cbn in L; try lia. cbn in Pr. subst r. assert (Hy' := Hy). apply HN in Hy'. rewrite Hy'. cbn [rbind]. destruct E as [E|E]; [cbn in E; lia|]. destruct (Rlt_dec (distance pos y) tol); [reflexivity|contradiction].
      * destruct (S' 0%nat ltac:(cbn; lia)) as [S1 S2]. cbn [nth firstn] in S1, S2. pose proof (HL _ _ _ S1) as Ly. apply HN in S1. rewrite S1. cbn [rbind]. destruct (Rlt_dec (distance pos x) tol); [lra|].
        apply IH. exists (x :: xs), hs. cbn [length] in *. repeat split; try lia.
        -- rewrite <- Pr. replace (S (S (length xs)) - 1)%nat with (S (S (length xs) - 1)) by lia. reflexivity.
        -- apply (G (S k)). lia.
        -- rewrite Ly. apply (G (S k)). lia.
        -- destruct (S' (S k) ltac:(lia)) as [T1 T2]. cbn [firstn nth] in T1. rewrite <- app_assoc. exact T1.
        -- apply (S' (S k)). lia.
        -- exists y. rewrite <- app_assoc. split; [exact Hy|]. destruct E as [E|E]; [left; lia|right; exact E].
Qed.

(** ** Adam *)
Definition adam_fn (p : descent_params) (gs : list (list R)) (x : list R) : result (list R) :=
  d <-- all_ok (map (fun c => adam_shift p (length gs) (ema (dp_b1 p) (component c gs)) (ema (dp_b2 p) (map square (component c gs)))) (seq 0 (length x))) ;;
  Ok (map2 Rminus x d).
Lemma np_sqrt_iff x y : np_sqrt x = Ok y <-> 0 <= x /\ y = sqrt x.
Proof. unfold np_sqrt. destruct (Rlt_dec x 0); split; intros H; try discriminate; try (destruct H; lra). injection H as <-. split; [lra|reflexivity]. destruct H as [_ ->]. reflexivity. Qed.
Lemma fdiv_iff a b y : fdiv a b = Ok y <-> b <> 0 /\ y = a / b.
Proof. unfold fdiv. destruct (Req_EM_T b 0); split; intros H; try discriminate; try (destruct H; contradiction). injection H as <-. auto. destruct H as [_ ->]. reflexivity. Qed.
Lemma denominator x : 0 < sqrt x + / 10 ^ 12.
Proof. pose proof (sqrt_pos x). pose proof (Rinv_0_lt_compat (10 ^ 12) ltac:(apply pow_lt; lra)). lra. Qed.
Lemma adam_shift_iff p n m v s : adam_shift p n m v = Ok s <->
  dp_b1 p ^ n <> 1 /\ dp_b2 p ^ n <> 1 /\ 0 <= v / (1 - dp_b2 p ^ n) /\ s = dp_rate p * (m / (1 - dp_b1 p ^ n)) / (sqrt (v / (1 - dp_b2 p ^ n)) + / 10 ^ 12).
Proof.
  unfold adam_shift, grad_eps. split.
  - intros H. apply rbind_iff in H. destruct H as [mh [H1 H]]. apply rbind_iff in H. destruct H as [vh [H2 H]]. apply rbind_iff in H. destruct H as [q [H3 H]].
    apply fdiv_iff in H1, H2, H. apply np_sqrt_iff in H3. destruct H1 as [H1 ->], H2 as [H2 ->], H3 as [H3 ->], H as [_ ->]. repeat split; [lra|lra|exact H3].
  - intros (H1 & H2 & H3 & ->). apply rbind_iff. exists (m / (1 - dp_b1 p ^ n)). split; [apply fdiv_iff; split; [lra|reflexivity]|].
    apply rbind_iff. exists (v / (1 - dp_b2 p ^ n)). split; [apply fdiv_iff; split; [lra|reflexivity]|]. apply rbind_iff. exists (sqrt (v / (1 - dp_b2 p ^ n))). split; [apply np_sqrt_iff; split; [exact H3|reflexivity]|].
    apply fdiv_iff. split; [pose proof (denominator (v / (1 - dp_b2 p ^ n))); lra|reflexivity].
Qed.
Lemma minus_nth x d c : length d = length x -> (c < length x)%nat -> nth c (map2 Rminus x d) 0 = nth c x 0 - nth c d 0.
Proof. intros L H. rewrite (coords_eta x) at 1. rewrite (coords_eta d) at 1. rewrite L, map2_coords. change (map ?f (seq 0 (length x))) with (coords (length x) f). rewrite coords_nth by exact H. reflexivity. Qed.
Lemma minus_len x d : length d = length x -> length (map2 Rminus x d) = length x.
Proof. intros L. unfold map2. rewrite map_length, combine_length. lia. Qed.
(** the step function of shifts f *)
Lemma shift_iff (f : nat -> result R) x y : (d <-- all_ok (map f (seq 0 (length x))) ;; Ok (map2 Rminus x d)) = Ok y <->
  length y = length x /\ forall c, (c < length x)%nat -> f c = Ok (nth c x 0 - nth c y 0).
Proof.
  split.
  - intros H. apply rbind_iff in H. destruct H as [d [Hd H]]. injection H as <-. apply (all_ok_iff _ _ _ 0) in Hd. destruct Hd as [L Hd]. rewrite minus_len by exact L. split; [reflexivity|].
    intros c Hc. rewrite minus_nth by assumption. rewrite (Hd c Hc). f_equal. ring.
  - intros [L H]. apply rbind_iff. exists (coords (length x) (fun c => nth c x 0 - nth c y 0)). split.
    + apply (all_ok_iff _ _ _ 0). rewrite coords_len. split; [reflexivity|]. intros c Hc. rewrite coords_nth by exact Hc. apply H, Hc.
    + f_equal. apply nth_ext with (d := 0) (d' := 0); rewrite minus_len by apply coords_len; [symmetry; exact L|]. intros c Hc. rewrite minus_nth by (try apply coords_len; exact Hc). rewrite coords_nth by exact Hc. ring.
Qed.
Lemma adam_fn_iff p gs x y : adam_fn p gs x = Ok y <-> adam_next p gs x y.
Proof.
  unfold adam_fn, adam_next. rewrite shift_iff. split; intros [L H]; (split; [exact L|]); intros c Hc; specialize (H c Hc).
  - apply adam_shift_iff in H. destruct H as (H1 & H2 & H3 & H4). repeat split; [exact H1|exact H2|exact H3|]. rewrite <- H4. ring.
  - destruct H as (H1 & H2 & H3 & H4). apply adam_shift_iff. repeat split; [exact H1|exact H2|exact H3|]. rewrite H4. ring.
Qed.
Lemma moments_snoc b d gs g : length g = d ->
  moments b (coords d (fun c => ema b (component c gs))) g = coords d (fun c => ema b (component c (gs ++ [g]))).
Proof.
  intros L. unfold moments. rewrite (coords_eta g), L at 1. rewrite map2_coords. apply coords_ext. intros c Hc. rewrite component_snoc, ema_snoc. reflexivity.
Qed.
Lemma moments_sq_snoc b d gs g : length g = d ->
  moments b (coords d (fun c => ema b (map square (component c gs)))) (map (fun x => x ^ 2) g) = coords d (fun c => ema b (map square (component c (gs ++ [g])))).
Proof.
  intros L. unfold moments. rewrite (coords_eta g), L, map_coords at 1. rewrite map2_coords. apply coords_ext. intros c Hc. rewrite component_snoc, map_app. cbn [map]. rewrite ema_snoc. unfold square at 3. ring.
Qed.
Lemma adam_loop_hist grad p more : forall gs pos,
  adam_loop grad p more (S (length gs)) pos (coords (length pos) (fun c => ema (dp_b1 p) (component c gs))) (coords (length pos) (fun c => ema (dp_b2 p) (map square (component c gs)))) =
  hist_loop (adam_fn p) grad (dp_tol p) more gs pos.
Proof.
  induction more as [|more IH]; intros gs pos; cbn [adam_loop hist_loop]; destruct (grad pos) as [g|e]; [|reflexivity| |reflexivity]; cbn [rbind];
    (destruct (Nat.eqb_spec (length g) (length pos)) as [L|]; [|reflexivity]); cbn [negb]; rewrite moments_snoc, moments_sq_snoc by exact L; rewrite map2_coords;
    unfold adam_fn at 1; rewrite app_length, Nat.add_1_r; (destruct (all_ok _) as [d|e] eqn:D; [|reflexivity]); cbn [rbind]; [reflexivity|].
  apply (all_ok_iff _ _ _ 0) in D. destruct D as [D _]. rewrite norm_distance by (rewrite minus_len by exact D; reflexivity). destruct (Rlt_dec _ _); [reflexivity|].
  rewrite <- IH. rewrite app_length, Nat.add_1_r, minus_len by exact D. reflexivity.
Qed.
Lemma zeros_coords b (x : list R) : map (fun _ => 0) x = coords (length x) (fun c => ema b (component c [])).
Proof. rewrite (coords_eta x) at 1. rewrite map_coords. reflexivity. Qed.
Lemma adam_iff grad p max_steps perturbation noise init r :
  adam_gradient_descent grad p max_steps perturbation noise init = Ok r <->
  exists xs gs, descends (adam_next p) grad (dp_tol p) (Z.to_nat max_steps) (perturbed perturbation noise init) xs gs r.
Proof.
  unfold adam_gradient_descent. pose proof (adam_loop_hist grad p (Z.to_nat max_steps) [] (perturbed perturbation noise init)) as Hh. cbn [length component map] in Hh.
  rewrite (zeros_coords 0). cbn [component map]. unfold ema in Hh. cbn [length Sigma] in Hh. unfold ema. cbn [length Sigma]. rewrite Hh.
  rewrite (hist_loop_iff (adam_fn p) (adam_next p) grad (dp_tol p) (adam_fn_iff p)); [|intros gs x y H; apply H].
  unfold descends. reflexivity.
Qed.

(** ** AMSGrad *)
Lemma ema_sq_nonneg b xs : 0 <= b <= 1 -> 0 <= ema b (map square xs).
Proof. intros Hb. induction xs as [|x xs IH] using rev_ind; [cbn [map]; rewrite ema_nil; lra|]. rewrite map_app. cbn [map]. rewrite ema_snoc. unfold square at 2. nra. Qed.
Lemma highest_ge n f : 0 <= highest n f.
Proof. induction n; cbn; [lra|]. eapply Rle_trans; [exact IHn|apply Rmax_l]. Qed.
Lemma highest_ext n f g : (forall k, (k < n)%nat -> f k = g k) -> highest n f = highest n g.
Proof. induction n as [|n IH]; intros H; [reflexivity|]. cbn. rewrite IH, H by (intros; try apply H; lia). reflexivity. Qed.
Definition peak (b : R) (c : nat) (gs : list (list R)) : R := highest (length gs) (fun k => ema b (map square (component c (firstn (S k) gs)))).
Lemma peak_snoc b c gs g : peak b c (gs ++ [g]) = Rmax (peak b c gs) (ema b (map square (component c (gs ++ [g])))).
Proof.
  unfold peak. rewrite app_length, Nat.add_1_r. cbn [highest]. f_equal.
  - apply highest_ext. intros k Hk. rewrite firstn_app. replace (S k - length gs)%nat with 0%nat by lia. rewrite firstn_O, app_nil_r. reflexivity.
  - rewrite firstn_all2; [reflexivity|]. rewrite app_length. cbn. lia.
Qed.
Definition ams_fn (p : descent_params) (gs : list (list R)) (x : list R) : result (list R) :=
  d <-- all_ok (map (fun c => ams_shift p (ema (dp_b1 p) (component c gs)) (peak (dp_b2 p) c gs)) (seq 0 (length x))) ;;
  Ok (map2 Rminus x d).
Lemma ams_shift_iff p m v s : 0 <= v -> ams_shift p m v = Ok s <-> s = dp_rate p * m / (sqrt v + / 10 ^ 12).
Proof.
  intros Hv. unfold ams_shift, grad_eps. split.
  - intros H. apply rbind_iff in H. destruct H as [q [H1 H]]. apply np_sqrt_iff in H1. apply fdiv_iff in H. destruct H1 as [_ ->], H as [_ ->]. reflexivity.
  - intros ->. apply rbind_iff. exists (sqrt v). split; [apply np_sqrt_iff; auto|]. apply fdiv_iff. split; [pose proof (denominator v); lra|reflexivity].
Qed.
Lemma ams_fn_iff p gs x y : ams_fn p gs x = Ok y <-> amsgrad_next p gs x y.
Proof.
  unfold ams_fn, amsgrad_next. rewrite shift_iff. split; intros [L H]; (split; [exact L|]); intros c Hc; specialize (H c Hc).
  - apply ams_shift_iff in H; [|apply highest_ge]. unfold peak in H. cbv zeta. rewrite <- H. ring.
  - apply ams_shift_iff; [apply highest_ge|]. unfold peak. cbv zeta in H. rewrite H. ring.
Qed.
Lemma ams_loop_hist grad p more : forall gs pos,
  ams_loop grad p more pos (coords (length pos) (fun c => ema (dp_b1 p) (component c gs))) (coords (length pos) (fun c => ema (dp_b2 p) (map square (component c gs)))) (coords (length pos) (fun c => peak (dp_b2 p) c gs)) =
  hist_loop (ams_fn p) grad (dp_tol p) more gs pos.
Proof.
  assert (Pk : forall d gs g, map2 Rmax (coords d (fun c => peak (dp_b2 p) c gs)) (coords d (fun c => ema (dp_b2 p) (map square (component c (gs ++ [g]))))) = coords d (fun c => peak (dp_b2 p) c (gs ++ [g]))).
  { intros d gs g. rewrite map2_coords. apply coords_ext. intros c Hc. symmetry. apply peak_snoc. }
  induction more as [|more IH]; intros gs pos; cbn [ams_loop hist_loop]; destruct (grad pos) as [g|e]; [|reflexivity| |reflexivity]; cbn [rbind];
    (destruct (Nat.eqb_spec (length g) (length pos)) as [L|]; [|reflexivity]); cbn [negb]; rewrite moments_snoc, moments_sq_snoc by exact L; rewrite Pk, map2_coords;
    unfold ams_fn at 1; (destruct (all_ok _) as [d|e] eqn:D; [|reflexivity]); cbn [rbind]; [reflexivity|].
  apply (all_ok_iff _ _ _ 0) in D. destruct D as [D _]. rewrite norm_distance by (rewrite minus_len by exact D; reflexivity). destruct (Rlt_dec _ _); [reflexivity|].
  rewrite <- IH. rewrite minus_len by exact D. reflexivity.
Qed.
Lemma amsgrad_iff grad p max_steps perturbation noise init r :
  amsgrad_gradient_descent grad p max_steps perturbation noise init = Ok r <->
  exists xs gs, descends (amsgrad_next p) grad (dp_tol p) (Z.to_nat max_steps) (perturbed perturbation noise init) xs gs r.
Proof.
  unfold amsgrad_gradient_descent. pose proof (ams_loop_hist grad p (Z.to_nat max_steps) [] (perturbed perturbation noise init)) as Hh.
  unfold descends. pose proof (hist_loop_iff (ams_fn p) (amsgrad_next p) grad (dp_tol p) (ams_fn_iff p) (fun gs x y H => proj1 H) (Z.to_nat max_steps) [] (perturbed perturbation noise init) r) as Hi.
  cbn [app] in Hi. rewrite <- Hi, <- Hh. rewrite (zeros_coords 0). reflexivity.
Qed.

(** ** Bounds of a step *)
Section Bound.
  Context (p : descent_params) (B1 : 0 <= dp_b1 p < 1) (B2 : dp_b1 p ^ 2 < dp_b2 p < 1) (B3 : 0 <= dp_rate p).
  Let K : R := (1 - dp_b1 p) ^ 2 * dp_b2 p / ((1 - dp_b2 p) * (dp_b2 p - dp_b1 p ^ 2)).
  Lemma b2_pos : 0 < dp_b2 p. Proof. pose proof (pow2_ge_0 (dp_b1 p)). lra. Qed.
  Lemma K_pos : 0 < K.
  Proof. unfold K. pose proof b2_pos. apply Rdiv_lt_0_compat; [apply Rmult_lt_0_compat; [apply pow_lt|]; lra|]. apply Rmult_lt_0_compat; lra. Qed.
  Lemma mean_var xs : (ema (dp_b1 p) xs) ^ 2 <= K * ema (dp_b2 p) (map square xs).
  Proof.
    pose proof b2_pos as P2. pose proof K_pos as PK.
    induction xs as [|x xs IH] using rev_ind; [cbn [map]; rewrite !ema_nil; lra|]. rewrite map_app. cbn [map]. rewrite !ema_snoc.
    set (m := ema (dp_b1 p) xs) in *. set (v := ema (dp_b2 p) (map square xs)) in *. unfold square.
    set (b1 := dp_b1 p) in *. set (b2 := dp_b2 p) in *.
    assert (E : K * ((1 - b2) * (x * x)) = (1 - b1) ^ 2 * b2 / (b2 - b1 ^ 2) * x ^ 2) by (unfold K; fold b1 b2; field; lra).
    apply Rle_trans with (b2 * m ^ 2 + (1 - b1) ^ 2 * b2 / (b2 - b1 ^ 2) * x ^ 2).
    - assert (Q : b2 * m ^ 2 + (1 - b1) ^ 2 * b2 / (b2 - b1 ^ 2) * x ^ 2 - (b1 * m + (1 - b1) * x) ^ 2 = ((b2 - b1 ^ 2) * m - (1 - b1) * b1 * x) ^ 2 / (b2 - b1 ^ 2)) by (field; lra).
      assert (0 <= ((b2 - b1 ^ 2) * m - (1 - b1) * b1 * x) ^ 2 / (b2 - b1 ^ 2)) by (apply Rmult_le_pos; [apply pow2_ge_0|left; apply Rinv_0_lt_compat; lra]). lra.
    - rewrite <- E. assert (b2 * m ^ 2 <= b2 * (K * v)) by (apply Rmult_le_compat_l; [lra|exact IH]). nra.
  Qed.
  Lemma ratio m v : m ^ 2 <= K * v -> 0 <= v -> Rabs m / (sqrt v + / 10 ^ 12) <= sqrt K.
  Proof.
    intros H Hv. pose proof (denominator v) as D. apply (Rmult_le_reg_r (sqrt v + / 10 ^ 12)); [exact D|]. unfold Rdiv. rewrite Rmult_assoc, Rinv_l, Rmult_1_r by lra.
    assert (Rabs m <= sqrt K * sqrt v).
    { rewrite <- sqrt_mult by (try exact Hv; left; apply K_pos). rewrite <- sqrt_Rsqr_abs. apply sqrt_le_1_alt. unfold Rsqr. lra. }
    pose proof (sqrt_pos K). pose proof (Rinv_0_lt_compat (10 ^ 12) ltac:(apply pow_lt; lra)). nra.
  Qed.
  Lemma pow_lt1 b n : 0 <= b < 1 -> (0 < n)%nat -> 0 <= b ^ n <= b.
  Proof.
    intros Hb Hn. destruct n as [|n]; [lia|]. cbn. assert (0 <= b ^ n <= 1).
    { clear Hn. induction n; cbn; [lra|]. nra. } nra.
  Qed.
  Lemma adam_bound gs x y c : (0 < length gs)%nat -> adam_next p gs x y -> (c < length x)%nat ->
    Rabs (nth c y 0 - nth c x 0) <= dp_rate p / sqrt ((1 - dp_b2 p) * (1 - dp_b1 p ^ 2 / dp_b2 p)).
  Proof.
    intros Hn [_ H] Hc. specialize (H c Hc). cbv zeta in H. destruct H as (H1 & H2 & H3 & H4). pose proof b2_pos as P2.
    rewrite H4. set (m := ema (dp_b1 p) (component c gs)) in *. set (v := ema (dp_b2 p) (map square (component c gs))) in *. set (n := length gs) in *.
    pose proof (pow_lt1 (dp_b1 p) n B1 Hn) as E1. pose proof (pow_lt1 (dp_b2 p) n ltac:(lra) Hn) as E2.
    assert (MV : m ^ 2 <= K * v) by apply mean_var.
    assert (Vn : 0 <= v) by (apply ema_sq_nonneg; lra).
    assert (Vh : v <= v / (1 - dp_b2 p ^ n)).
    { apply (Rmult_le_reg_r (1 - dp_b2 p ^ n)); [lra|]. unfold Rdiv. rewrite Rmult_assoc, Rinv_l, Rmult_1_r by lra. nra. }
    assert (M2 : m ^ 2 <= K * (v / (1 - dp_b2 p ^ n))) by (pose proof K_pos; nra).
    pose proof (ratio m _ M2 H3) as HR. set (w := sqrt (v / (1 - dp_b2 p ^ n)) + / 10 ^ 12) in *. assert (Hw : 0 < w) by apply denominator.
    replace (nth c x 0 - dp_rate p * (m / (1 - dp_b1 p ^ n)) / w - nth c x 0) with (- (dp_rate p * (m / w) * / (1 - dp_b1 p ^ n))) by (field; lra).
    rewrite Rabs_Ropp, !Rabs_mult. rewrite (Rabs_pos_eq (dp_rate p)) by exact B3. rewrite (Rabs_pos_eq (/ (1 - dp_b1 p ^ n))) by (left; apply Rinv_0_lt_compat; lra).
    assert (Rabs (m / w) <= sqrt K) by (unfold Rdiv; rewrite Rabs_mult, (Rabs_pos_eq (/ w)) by (left; apply Rinv_0_lt_compat; exact Hw); exact HR).
    assert (I1 : / (1 - dp_b1 p ^ n) <= / (1 - dp_b1 p)) by (apply Rinv_le_contravar; lra).
    assert (I0 : 0 < / (1 - dp_b1 p ^ n)) by (apply Rinv_0_lt_compat; lra).
    assert (SK : sqrt K * / (1 - dp_b1 p) = / sqrt ((1 - dp_b2 p) * (1 - dp_b1 p ^ 2 / dp_b2 p))).
    { assert (Q : 0 < (1 - dp_b2 p) * (1 - dp_b1 p ^ 2 / dp_b2 p)).
      { apply Rmult_lt_0_compat; [lra|]. apply (Rmult_lt_reg_r (dp_b2 p)); [exact P2|]. field_simplify; lra. }
      rewrite <- sqrt_inv. replace (/ (1 - dp_b1 p)) with (sqrt ((/ (1 - dp_b1 p)) ^ 2)) by (apply sqrt_pow2; left; apply Rinv_0_lt_compat; lra).
      rewrite <- sqrt_mult by (try apply pow2_ge_0; left; apply K_pos). f_equal. unfold K. field. repeat split; try lra. }
    apply Rle_trans with (dp_rate p * (sqrt K * / (1 - dp_b1 p))); [|rewrite SK; right; reflexivity].
    pose proof (sqrt_pos K). pose proof (Rabs_pos (m / w)). rewrite Rmult_assoc. apply Rmult_le_compat_l; [exact B3|]. apply Rmult_le_compat; lra.
  Qed.
  Lemma amsgrad_bound gs x y c : (0 < length gs)%nat -> amsgrad_next p gs x y -> (c < length x)%nat ->
    Rabs (nth c y 0 - nth c x 0) <= dp_rate p * (1 - dp_b1 p) / sqrt ((1 - dp_b2 p) * (1 - dp_b1 p ^ 2 / dp_b2 p)).
  Proof.
    intros Hn [_ H] Hc. specialize (H c Hc). cbv zeta in H. pose proof b2_pos as P2.
    rewrite H. fold (peak (dp_b2 p) c gs). set (m := ema (dp_b1 p) (component c gs)) in *.
    assert (Vp : ema (dp_b2 p) (map square (component c gs)) <= peak (dp_b2 p) c gs).
    { destruct gs as [|g gs] using rev_ind; [cbn in Hn; lia|]. rewrite peak_snoc. apply Rmax_r. }
    pose proof (mean_var (component c gs)) as MV. fold m in MV. set (v := peak _ _ _) in *.
    assert (M2 : m ^ 2 <= K * v) by (pose proof K_pos; nra).
    pose proof (ratio m v M2 (highest_ge _ _)) as HR. set (w := sqrt v + / 10 ^ 12) in *. assert (Hw : 0 < w) by apply denominator.
    replace (nth c x 0 - dp_rate p * m / w - nth c x 0) with (- (dp_rate p * (m / w))) by (field; lra).
    rewrite Rabs_Ropp, Rabs_mult, (Rabs_pos_eq (dp_rate p)) by exact B3.
    assert (Rabs (m / w) <= sqrt K) by (unfold Rdiv; rewrite Rabs_mult, (Rabs_pos_eq (/ w)) by (left; apply Rinv_0_lt_compat; exact Hw); exact HR).
    assert (SK : sqrt K = (1 - dp_b1 p) / sqrt ((1 - dp_b2 p) * (1 - dp_b1 p ^ 2 / dp_b2 p))).
    { assert (Q : 0 < (1 - dp_b2 p) * (1 - dp_b1 p ^ 2 / dp_b2 p)).
      { apply Rmult_lt_0_compat; [lra|]. apply (Rmult_lt_reg_r (dp_b2 p)); [exact P2|]. field_simplify; lra. }
      unfold Rdiv at 1. rewrite <- sqrt_inv. replace (1 - dp_b1 p) with (sqrt ((1 - dp_b1 p) ^ 2)) at 1 by (apply sqrt_pow2; lra).
      rewrite <- sqrt_mult by (try apply pow2_ge_0; left; apply Rinv_0_lt_compat; exact Q). f_equal. unfold K. field. repeat split; try lra. }
    apply Rle_trans with (dp_rate p * sqrt K); [|rewrite SK; right; unfold Rdiv; ring]. apply Rmult_le_compat_l; assumption.
  Qed.
End Bound.
