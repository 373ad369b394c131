(** Proofs about the Oersted field model. *)
From Verif Require Import P_Resist P_Spectrum.
From Verif Require Import S_Oersted.
From Coq Require Import Psatz FinFun.
From Coq Require String.
Open Scope R_scope.
Open Scope st_scope.

(** ** Sums *)
Lemma total_app {A} (f : A -> R) l m : total f (l ++ m) = total f l + total f m.
Proof. unfold total. induction l; cbn; [ring|]. rewrite IHl. ring. Qed.
Lemma total_ext {A} (f g : A -> R) l : (forall a, In a l -> f a = g a) -> total f l = total g l.
Proof. unfold total. induction l; cbn; [reflexivity|]. intros H. rewrite (H a) by (left; reflexivity). rewrite IHl by (intros; apply H; right; assumption). reflexivity. Qed.
Lemma total_map {A B} (f : B -> R) (g : A -> B) l : total f (map g l) = total (fun a => f (g a)) l.
Proof. unfold total. induction l; cbn; [reflexivity|]. rewrite IHl. reflexivity. Qed.
Lemma total_flat {A B} (f : B -> R) (g : A -> list B) l : total f (flat_map g l) = total (fun a => total f (g a)) l.
Proof. induction l as [|a l IH]; [reflexivity|]. cbn [flat_map]. rewrite total_app, IH. reflexivity. Qed.
Lemma total_plus {A} (f g : A -> R) l : total (fun a => f a + g a) l = total f l + total g l.
Proof. unfold total. induction l; cbn; [ring|]. rewrite IHl. ring. Qed.
Lemma total_scal {A} (f : A -> R) c l : total (fun a => c * f a) l = c * total f l.
Proof. unfold total. induction l; cbn; [ring|]. rewrite IHl. ring. Qed.
Lemma total_zero {A} (f : A -> R) l : (forall a, In a l -> f a = 0) -> total f l = 0.
Proof. intros H. rewrite (total_ext f (fun _ => 0 * 0)) by (intros; rewrite H by assumption; ring). rewrite total_scal. ring. Qed.
Lemma total_swap {A B} (f : A -> B -> R) l m : total (fun a => total (f a) m) l = total (fun b => total (fun a => f a b) l) m.
Proof. induction l as [|a l IH]; [symmetry; apply total_zero; reflexivity|]. change (total (f a) m + total (fun a => total (f a) m) l = total (fun b => f a b + total (fun a => f a b) l) m). rewrite IH, total_plus. reflexivity. Qed.
Lemma total_filter {A} (f : A -> R) (p : A -> bool) l : total f (filter p l) = total (fun a => if p a then f a else 0) l.
Proof. unfold total. induction l; cbn; [reflexivity|]. destruct (p a); cbn; rewrite IHl; ring. Qed.
Lemma total_only {A} (f : A -> R) (p : A -> bool) a l : NoDup l -> In a l -> (forall b, In b l -> p b = true <-> b = a) -> total (fun b => if p b then f b else 0) l = f a.
Proof.
  induction l as [|c l IH]; intros N I P; [contradiction|]. inversion N as [|? ? NI N']; subst. change ((if p c then f c else 0) + total (fun b => if p b then f b else 0) l = f a).
  destruct I as [->|I].
  - rewrite (proj2 (P a (or_introl eq_refl)) eq_refl). rewrite total_zero; [ring|]. intros b Hb. destruct (p b) eqn:E; [|reflexivity]. apply (P b (or_intror Hb)) in E. subst. contradiction.
  - destruct (p c) eqn:E; [apply (P c (or_introl eq_refl)) in E; subst; contradiction|]. rewrite IH; [ring|exact N'|exact I|]. intros b Hb. apply P. right. exact Hb.
Qed.
Lemma total_const {A} (c : R) (l : list A) : total (fun _ => c) l = INR (length l) * c.
Proof. unfold total. induction l; cbn [fold_right length]; [cbn; ring|]. rewrite IHl, S_INR. ring. Qed.

(** ** Ranges and the grid *)
Lemma zrange_in a b k : In k (zrange a b) <-> (a <= k < b)%Z.
Proof. unfold zrange. rewrite in_map_iff. split; [intros (n & <- & H); apply in_seq in H; lia|]. intros H. exists (Z.to_nat (k - a)). split; [lia|]. apply in_seq. lia. Qed.
Lemma zrange_len a b : length (zrange a b) = Z.to_nat (b - a).
Proof. unfold zrange. rewrite map_length, seq_length. reflexivity. Qed.
Lemma zrange_nodup a b : NoDup (zrange a b).
Proof. unfold zrange. apply FinFun.Injective_map_NoDup; [intros x y E; lia|apply seq_NoDup]. Qed.
Lemma zrange_nth a b k : (a <= k < b)%Z -> nth_error (zrange a b) (Z.to_nat (k - a)) = Some k.
Proof.
  intros H. unfold zrange. rewrite nth_error_map. rewrite (nth_error_nth' _ 0%nat) by (rewrite seq_length; lia). rewrite seq_nth by lia. cbn. f_equal. lia.
Qed.
Lemma grid_in X Y Zs x y z : In (x, y, z) (grid X Y Zs) <-> (0 <= x < X)%Z /\ (0 <= y < Y)%Z /\ (0 <= z < Zs)%Z.
Proof.
  unfold grid. rewrite in_flat_map. split.
  - intros (x' & Hx & H). apply in_flat_map in H. destruct H as (y' & Hy & H). apply in_map_iff in H. destruct H as (z' & E & Hz). apply zrange_in in Hx, Hy, Hz. injection E as -> -> ->. tauto.
  - intros (Hx & Hy & Hz). exists x. split; [apply zrange_in, Hx|]. apply in_flat_map. exists y. split; [apply zrange_in, Hy|]. apply in_map_iff. exists z. split; [reflexivity|apply zrange_in, Hz].
Qed.
Lemma flat_nth {A B} (g : A -> list B) m l : (forall a, In a l -> length (g a) = m) -> forall i j a b, nth_error l i = Some a -> nth_error (g a) j = Some b -> nth_error (flat_map g l) (i * m + j) = Some b.
Proof.
  induction l as [|c l IH]; intros Hm i j a b Hi Hj; [destruct i; discriminate|]. cbn [flat_map]. assert (Lc : length (g c) = m) by (apply Hm; left; reflexivity). destruct i as [|i].
  - injection Hi as ->. cbn [Nat.mul Nat.add]. rewrite nth_error_app1; [exact Hj|]. apply nth_error_Some. rewrite Hj. discriminate.
  - rewrite nth_error_app2 by lia. replace (S i * m + j - length (g c))%nat with (i * m + j)%nat by lia. apply IH with a; [|exact Hi|exact Hj]. intros; apply Hm; right; assumption.
Qed.
Lemma flat_len {A B} (g : A -> list B) m l : (forall a, In a l -> length (g a) = m) -> length (flat_map g l) = (length l * m)%nat.
Proof. induction l as [|c l IH]; intros H; [reflexivity|]. cbn [flat_map length]. rewrite app_length, IH by (intros; apply H; right; assumption). rewrite (H c) by (left; reflexivity). lia. Qed.
Definition spot (Y Zs x y z : Z) : nat := Z.to_nat ((x * Y + y) * Zs + z).
Lemma grid_row_len Y Zs (x : Z) : length (flat_map (fun y => map (fun z => (x, y, z)) (zrange 0 Zs)) (zrange 0 Y)) = (Z.to_nat Y * Z.to_nat Zs)%nat.
Proof. rewrite (flat_len _ (Z.to_nat Zs)); [rewrite zrange_len, Z.sub_0_r; reflexivity|]. intros. rewrite map_length, zrange_len, Z.sub_0_r. reflexivity. Qed.
Lemma grid_len X Y Zs : length (grid X Y Zs) = (Z.to_nat X * (Z.to_nat Y * Z.to_nat Zs))%nat.
Proof. unfold grid. rewrite (flat_len _ (Z.to_nat Y * Z.to_nat Zs)%nat); [rewrite zrange_len, Z.sub_0_r; reflexivity|]. intros. apply grid_row_len. Qed.
Lemma grid_nth X Y Zs x y z : (0 <= x < X)%Z -> (0 <= y < Y)%Z -> (0 <= z < Zs)%Z -> nth_error (grid X Y Zs) (spot Y Zs x y z) = Some (x, y, z).
Proof.
  intros Hx Hy Hz. unfold grid, spot. replace (Z.to_nat ((x * Y + y) * Zs + z)) with (Z.to_nat (x - 0) * (Z.to_nat Y * Z.to_nat Zs) + (Z.to_nat (y - 0) * Z.to_nat Zs + Z.to_nat (z - 0)))%nat by nia.
  apply flat_nth with x; [intros; apply grid_row_len|apply zrange_nth; exact Hx|]. apply flat_nth with y; [intros; rewrite map_length, zrange_len, Z.sub_0_r; reflexivity|apply zrange_nth; exact Hy|]. rewrite nth_error_map, zrange_nth by exact Hz. reflexivity.
Qed.
Lemma NoDup_flat {A B} (g : A -> list B) (key : B -> A) l : NoDup l -> (forall a, In a l -> NoDup (g a)) -> (forall a b, In a l -> In b (g a) -> key b = a) -> NoDup (flat_map g l).
Proof.
  induction l as [|c l IH]; intros N G K; [constructor|]. inversion N as [|? ? NI N']; subst. cbn [flat_map].
  assert (H1 : NoDup (g c)) by (apply G; left; reflexivity). assert (H2 : NoDup (flat_map g l)) by (apply IH; [exact N'|intros; apply G; right; assumption|intros; apply K; [right|]; assumption]).
  assert (H3 : forall b, In b (g c) -> ~ In b (flat_map g l)). { intros b Hb Hf. apply in_flat_map in Hf. destruct Hf as (a & Ha & Hb'). assert (E : c = a) by (rewrite <- (K c b), <- (K a b); try reflexivity; try assumption; [right; exact Ha|left; reflexivity]). subst. contradiction. }
  clear - H1 H2 H3. induction (g c) as [|b t IHt]; [exact H2|]. inversion H1; subst. cbn. constructor; [rewrite in_app_iff; intros [?|?]; [contradiction|apply (H3 b); [left; reflexivity|assumption]]|]. apply IHt; [assumption|]. intros; apply H3. right. assumption.
Qed.
Lemma grid_nodup X Y Zs : NoDup (grid X Y Zs).
Proof.
  unfold grid. apply (NoDup_flat _ (fun p => fst (fst p))); [apply zrange_nodup| |].
  - intros x _. apply (NoDup_flat _ (fun p => snd (fst p))); [apply zrange_nodup| |].
    + intros y _. apply FinFun.Injective_map_NoDup; [intros a b E; congruence|apply zrange_nodup].
    + intros y p _ Hp. apply in_map_iff in Hp. destruct Hp as (z & <- & _). reflexivity.
  - intros x p _ Hp. apply in_flat_map in Hp. destruct Hp as (y & _ & Hp). apply in_map_iff in Hp. destruct Hp as (z & <- & _). reflexivity.
Qed.

(** ** Blocks *)
Lemma div_iff a b r : py_div a b = Ok r <-> b <> 0 /\ r = a / b.
Proof. unfold py_div. destruct (Req_EM_T b 0); split; try discriminate; try tauto; [intros H; injection H as <-; tauto|intros [_ ->]; reflexivity]. Qed.
Lemma pos_distance b o : b_dx b = b_dx o -> b_dy b = b_dy o -> distance (b_x b, b_y b) (b_x o, b_y o) = centre_distance b o / 2.
Proof.
  intros E1 E2. unfold distance, centre_distance, b_x, b_y. cbn [fst snd]. rewrite <- E1, <- E2. set (u := IZR (b_ix b)). set (v := IZR (b_ix o)). set (p := IZR (b_iy b)). set (q := IZR (b_iy o)).
  replace (((u + 1) * b_dx b / 2 - (v + 1) * b_dx b / 2) ^ 2 + ((p + 1) * b_dy b / 2 - (q + 1) * b_dy b / 2) ^ 2) with (((b_dx b * (u - v)) ^ 2 + (b_dy b * (p - q)) ^ 2) / (2 * 2)) by field.
  rewrite sqrt_div_alt by lra. rewrite sqrt_square by lra. reflexivity.
Qed.
Lemma distance_zero b o : b_dx b <> 0 -> b_dy b <> 0 -> centre_distance b o = 0 <-> b_ix b = b_ix o /\ b_iy b = b_iy o.
Proof.
  intros N1 N2. unfold centre_distance. split.
  - intros H. pose proof (pow2_ge_0 (b_dx b * (IZR (b_ix b) - IZR (b_ix o)))) as G1. pose proof (pow2_ge_0 (b_dy b * (IZR (b_iy b) - IZR (b_iy o)))) as G2. apply sqrt_eq_0 in H; [|lra]. assert (P1 : (b_dx b * (IZR (b_ix b) - IZR (b_ix o))) ^ 2 = 0) by lra. assert (P2 : (b_dy b * (IZR (b_iy b) - IZR (b_iy o))) ^ 2 = 0) by lra.
    assert (Q : forall x, x ^ 2 = 0 -> x = 0) by (intros; nra). apply Q in P1, P2. apply Rmult_integral in P1, P2. split; apply eq_IZR; lra.
  - intros [-> ->]. replace ((b_dx b * (IZR (b_ix o) - IZR (b_ix o))) ^ 2 + (b_dy b * (IZR (b_iy o) - IZR (b_iy o))) ^ 2) with 0 by ring. apply sqrt_0.
Qed.
Lemma ampere_iff b o h : b_dx b = b_dx o -> b_dy b = b_dy o -> block_ampere b o = Ok h <-> centre_distance b o <> 0 /\ h = ampere_field b o.
Proof.
  intros E1 E2. unfold block_ampere, ampere_law, ampere_field. rewrite div_iff, (pos_distance b o E1 E2). pose proof PI_RGT_0. split.
  - intros [N ->]. split; [intros E; apply N; rewrite E; field|]. replace (PI * 2) with (2 * PI) by ring. reflexivity.
  - intros [N ->]. replace (PI * 2) with (2 * PI) by ring. split; [|reflexivity]. apply Rmult_integral_contrapositive_currified; [lra|]. intros E. apply N. lra.
Qed.
Lemma biot_iff b o h : b_dx b = b_dx o -> b_dy b = b_dy o -> biot_savart b o = Ok h <->
  h = if Rlt_dec (centre_distance b o) (2 / 10 ^ 15) then 0 else b_I o * (b_dx o * b_dy o) * b_dz b / (4 * PI * (centre_distance b o / 2) ^ 2).
Proof.
  intros E1 E2. unfold biot_savart. rewrite (pos_distance b o E1 E2). set (d := centre_distance b o). pose proof PI_RGT_0 as Pp. assert (T : 0 < 10 ^ 15) by (apply pow_lt; lra). assert (Q : 0 < 1 / 10 ^ 15) by (apply Rdiv_lt_0_compat; lra). replace (2 / 10 ^ 15) with (2 * (1 / 10 ^ 15)) by (unfold Rdiv; ring). set (q := 1 / 10 ^ 15) in *.
  destruct (Rlt_dec (d / 2) q); destruct (Rlt_dec d (2 * q)); try lra.
  - split; [intros H; injection H as <-; reflexivity|intros ->; reflexivity].
  - assert (D : d <> 0) by lra. assert (D2 : (d / 2) ^ 2 <> 0) by (apply pow_nonzero; lra). rewrite (proj2 (div_iff _ _ _) (conj D2 eq_refl)). cbn [rbind]. unfold b_area, b_dl.
    assert (E : b_I o * (b_dx o * b_dy o) * b_dz b / (d / 2) ^ 2 / (4 * PI) = b_I o * (b_dx o * b_dy o) * b_dz b / (4 * PI * (d / 2) ^ 2)) by (field; split; lra). rewrite E. split; [intros H; injection H as <-; reflexivity|intros ->; reflexivity].
Qed.
Lemma eq_iff b o : block_eq b o = true <-> place b = place o.
Proof. unfold block_eq, place. rewrite !andb_true_iff, !Z.eqb_eq. split; [intros [[-> ->] ->]; reflexivity|]. intros E. injection E as -> -> ->. tauto. Qed.
Lemma eq_sym b o : block_eq b o = block_eq o b.
Proof. apply eq_true_iff_eq. rewrite !eq_iff. split; congruence. Qed.
Lemma distance_sym b o : b_dx b = b_dx o -> b_dy b = b_dy o -> centre_distance b o = centre_distance o b.
Proof. intros E1 E2. unfold centre_distance. rewrite E1, E2. f_equal. ring. Qed.

(** ** Loops *)
Lemma each_app {S A} (f : A -> ST S unit) l m s : each f (l ++ m) s = bind (each f l) (fun _ => each f m) s.
Proof.
  revert s. induction l as [|a l IH]; intros s; [reflexivity|]. cbn [each app]. unfold bind in *. destruct (f a s) as [s' [u|e]]; [|reflexivity]. exact (IH s').
Qed.
Lemma each_flat {S A B} (f : B -> ST S unit) (g : A -> list B) l : forall s, each f (flat_map g l) s = each (fun a => each f (g a)) l s.
Proof.
  induction l as [|a l IH]; intros s; [reflexivity|]. cbn [flat_map each]. rewrite each_app. unfold bind. destruct (each f (g a) s) as [s' [u|e]]; [|reflexivity]. apply IH.
Qed.
Lemma each_map {S A B} (f : B -> ST S unit) (g : A -> B) l : forall s, each f (map g l) s = each (fun a => f (g a)) l s.
Proof. induction l as [|a l IH]; intros s; [reflexivity|]. cbn [map each]. unfold bind. destruct (f (g a) s) as [s' [u|e]]; [|reflexivity]. apply IH. Qed.
Lemma each_ext {S A} (f g : A -> ST S unit) l : (forall a s, f a s = g a s) -> forall s, each f l s = each g l s.
Proof. intros H. induction l as [|a l IH]; intros s; [reflexivity|]. cbn [each]. unfold bind. rewrite H. destruct (g a s) as [s' [u|e]]; [apply IH|reflexivity]. Qed.
Lemma row_nth {A} (l : list A) k (a : A) : row_ l k = Ok a <-> nth_error l k = Some a.
Proof. unfold row_. destruct (nth_error l k); split; intros H; try discriminate; congruence. Qed.
Lemma update_ok f k s b : nth_error (s_blocks s) k = Some b -> update_block f k s = (with_blocks (set_nth k (f b) (s_blocks s)) s, Ok tt).
Proof. intros H. unfold update_block, bind, get, lift, modify. rewrite (proj2 (row_nth _ _ _) H). reflexivity. Qed.
Lemma set_nth_nth {A} (l : list A) k a j : nth_error (set_nth k a l) j = if Nat.eqb j k then match nth_error l k with Some _ => Some a | None => None end else nth_error l j.
Proof.
  revert k j. induction l as [|x l IH]; intros k j; [cbn; destruct j, k; cbn; try reflexivity; destruct (j =? k)%nat; reflexivity|].
  destruct k as [|k], j as [|j]; cbn [set_nth nth_error]; try reflexivity. rewrite IH. reflexivity.
Qed.
Lemma set_nth_len {A} (l : list A) k a : length (set_nth k a l) = length l.
Proof. revert k. induction l; intros [|k]; cbn; try reflexivity. rewrite IHl. reflexivity. Qed.
Lemma nth_ext' {A} (l m : list A) : (forall k, nth_error l k = nth_error m k) -> l = m.
Proof.
  revert m. induction l as [|a l IH]; intros [|b m] H; [reflexivity|specialize (H 0%nat); discriminate|specialize (H 0%nat); discriminate|].
  pose proof (H 0%nat) as H0. injection H0 as ->. f_equal. apply IH. intros k. exact (H (S k)).
Qed.
Lemma with_blocks_id s : with_blocks (s_blocks s) s = s. Proof. destruct s. reflexivity. Qed.
Lemma with_blocks_twice l m s : with_blocks l (with_blocks m s) = with_blocks l s. Proof. reflexivity. Qed.
(** Block k replaced by [g k] of itself. *)
Definition changed (g : nat -> block -> block) (l m : list block) : Prop := forall k, nth_error m k = option_map (g k) (nth_error l k).
Lemma changed_det g l m n : changed g l m -> changed g l n -> m = n.
Proof. intros H G. apply nth_ext'. intros k. rewrite (H k), (G k). reflexivity. Qed.

(** ** Positions *)
Lemma built_nth s x y z : built s -> (0 <= x < s_X s)%Z -> (0 <= y < s_Y s)%Z -> (0 <= z < s_Z s)%Z -> exists b, nth_error (s_blocks s) (spot (s_Y s) (s_Z s) x y z) = Some b /\ place b = (x, y, z).
Proof.
  intros (_ & _ & _ & _ & _ & G & _) Hx Hy Hz. pose proof (grid_nth _ _ _ _ _ _ Hx Hy Hz) as N. rewrite <- G in N. rewrite nth_error_map in N. destruct (nth_error (s_blocks s) _) as [b|]; [|discriminate]. exists b. split; [reflexivity|]. cbn [option_map] in N. congruence.
Qed.
Lemma built_place s b : built s -> In b (s_blocks s) -> (0 <= b_ix b < s_X s)%Z /\ (0 <= b_iy b < s_Y s)%Z /\ (0 <= b_iz b < s_Z s)%Z.
Proof. intros (_ & _ & _ & _ & _ & G & _) H. apply grid_in. rewrite <- G. exact (in_map place _ _ H). Qed.
Lemma built_inj s k j b o : built s -> nth_error (s_blocks s) k = Some b -> nth_error (s_blocks s) j = Some o -> place b = place o -> k = j.
Proof.
  intros (_ & _ & _ & _ & _ & G & _) Hk Hj E. pose proof (grid_nodup (s_X s) (s_Y s) (s_Z s)) as N. rewrite <- G in N. apply (proj1 (NoDup_nth_error _) N); [rewrite map_length; apply nth_error_Some; rewrite Hk; discriminate|]. rewrite !nth_error_map, Hk, Hj. cbn. f_equal. exact E.
Qed.
Lemma built_spot s k b : built s -> nth_error (s_blocks s) k = Some b -> k = spot (s_Y s) (s_Z s) (b_ix b) (b_iy b) (b_iz b).
Proof.
  intros B Hk. destruct (built_place s b B (nth_error_In _ _ Hk)) as (P1 & P2 & P3). destruct (built_nth s _ _ _ B P1 P2 P3) as (o & Ho & E). apply (built_inj s k _ b o B Hk Ho). symmetry. exact E.
Qed.
Lemma built_changed s g m : built s -> (forall k b, place (g k b) = place b /\ b_dx (g k b) = b_dx b /\ b_dy (g k b) = b_dy b /\ b_dz (g k b) = b_dz b) -> changed g (s_blocks s) m -> built (with_blocks m s).
Proof.
  intros (B1 & B2 & B3 & B4 & B5 & G & F) Hg C. unfold built. cbn [s_X s_Y s_Z s_dx s_dy s_dz s_blocks with_blocks]. repeat (split; [assumption|]). split.
  - rewrite <- G. apply nth_ext'. intros k. rewrite !nth_error_map, (C k). destruct (nth_error (s_blocks s) k); [|reflexivity]. cbn. f_equal. apply Hg.
  - rewrite Forall_forall in *. intros b Hb. apply In_nth_error in Hb. destruct Hb as [k Hk]. rewrite (C k) in Hk. destruct (nth_error (s_blocks s) k) as [o|] eqn:E; [|discriminate]. injection Hk as <-. destruct (F o (nth_error_In _ _ E)) as (F1 & F2 & F3). destruct (Hg k o) as (_ & H1 & H2 & H3). unfold sized. rewrite H1, H2, H3. tauto.
Qed.

(** ** Construction *)
Lemma ceil_iff x c : math_ceil x = c <-> IZR c - 1 < x <= IZR c.
Proof.
  unfold math_ceil. pose proof (base_Int_part (- x)) as [H1 H2]. split.
  - intros <-. rewrite opp_IZR. lra.
  - intros [A1 A2]. assert (E : Int_part (- x) = (- c)%Z); [|lia]. assert (L : (Int_part (- x) < - c + 1)%Z) by (apply lt_IZR; rewrite plus_IZR, opp_IZR; lra). assert (U : (- c < Int_part (- x) + 1)%Z) by (apply lt_IZR; rewrite plus_IZR, opp_IZR; lra). lia.
Qed.
Lemma init_grid X Y Zs dx dy dz : flat_map (fun ix => flat_map (fun iy => map (fun iz => newBlock ix iy iz dx dy dz) (zrange 0 Zs)) (zrange 0 Y)) (zrange 0 X) = map (fun p => newBlock (fst (fst p)) (snd (fst p)) (snd p) dx dy dz) (grid X Y Zs).
Proof.
  assert (M : forall (A B C : Type) (f : B -> C) (g : A -> list B) l, map f (flat_map g l) = flat_map (fun a => map f (g a)) l) by (intros A B C f g l; induction l; cbn; [reflexivity|]; rewrite map_app, IHl; reflexivity).
  unfold grid. rewrite M. apply flat_map_ext. intros x. rewrite M. apply flat_map_ext. intros y. rewrite map_map. reflexivity.
Qed.
Lemma init_iff X Y Zs dx dy dz l : init_blocks X Y Zs dx dy dz = Ok l <-> (0 <= X)%Z /\ (0 <= Y)%Z /\ (0 <= Zs)%Z /\ l = fresh_blocks X Y Zs dx dy dz.
Proof.
  unfold init_blocks. rewrite init_grid. destruct (Z.ltb_spec X 0); [split; [discriminate|lia]|]. destruct (Z.ltb_spec Y 0); [split; [discriminate|lia]|]. destruct (Z.ltb_spec Zs 0); [split; [discriminate|lia]|]. cbn. split; [intros H'; injection H' as <-; tauto|]. intros (_ & _ & _ & ->). reflexivity.
Qed.
Lemma fresh_built maxY dx dy dz X Y Zs bs ls : (0 <= X)%Z -> (0 <= Y)%Z -> (1 <= Zs)%Z -> dx <> 0 -> dy <> 0 -> built (Structure maxY dx dy dz X Y Zs (fresh_blocks X Y Zs dx dy dz) bs ls).
Proof.
  intros. unfold built. cbn. repeat (split; [assumption|]). unfold fresh_blocks. split; [rewrite map_map; rewrite (map_ext _ (fun p => p)) by (intros [[x y] z]; reflexivity); apply map_id|].
  apply Forall_forall. intros b Hb. apply in_map_iff in Hb. destruct Hb as (p & <- & _). unfold sized. cbn. tauto.
Qed.
Lemma fresh_zero X Y Zs dx dy dz b : In b (fresh_blocks X Y Zs dx dy dz) -> b_H b = 0 /\ b_I b = 0.
Proof. intros Hb. apply in_map_iff in Hb. destruct Hb as (p & <- & _). split; reflexivity. Qed.
Lemma new_iff maxX maxY maxZ dx dy dz method s : newStructure maxX maxY maxZ dx dy dz method = Ok s <->
  dx <> 0 /\ dy <> 0 /\ dz <> 0 /\ exists X Y Zs, IZR X - 1 < num_val maxX / dx <= IZR X /\ IZR Y - 1 < num_val maxY / dy <= IZR Y /\ (0 <= X)%Z /\ (0 <= Y)%Z /\
    (Zs = 1%Z /\ num_val maxZ / dz <= 1 \/ method = BIOT_SAVART /\ (1 < Zs)%Z /\ IZR Zs - 1 < num_val maxZ / dz <= IZR Zs) /\
    s = Structure maxY dx dy dz X Y Zs (fresh_blocks X Y Zs dx dy dz) [] [].
Proof.
  unfold newStructure. split.
  - intros H. apply rbind_iff in H. destruct H as [qx [Q1 H]]. apply div_iff in Q1. destruct Q1 as [N1 ->]. apply rbind_iff in H. destruct H as [qy [Q2 H]]. apply div_iff in Q2. destruct Q2 as [N2 ->]. apply rbind_iff in H. destruct H as [qz [Q3 H]]. apply div_iff in Q3. destruct Q3 as [N3 ->].
    repeat (split; [assumption|]). cbv zeta in H. set (c := math_ceil (num_val maxZ / dz)) in *. pose proof (proj1 (ceil_iff _ c) eq_refl) as C.
    destruct (match method with AMPERE => _ | BIOT_SAVART => _ end) eqn:M; [discriminate|]. apply rbind_iff in H. destruct H as [l [L H]]. apply init_iff in L. destruct L as (L1 & L2 & _ & ->). injection H as <-. eexists _, _, _. split; [apply ceil_iff; reflexivity|]. split; [apply ceil_iff; reflexivity|]. split; [exact L1|]. split; [exact L2|]. split; [|reflexivity].
    destruct (Z_le_gt_dec c 1) as [Hc|Hc]; [left; split; [lia|]; apply IZR_le in Hc; lra|]. right. rewrite Z.max_l by lia. destruct method; [rewrite Z.max_l in M by lia; apply Z.ltb_ge in M; lia|]. split; [reflexivity|]. split; [lia|exact C].
  - intros (N1 & N2 & N3 & X & Y & Zs & CX & CY & PX & PY & CZ & ->). rewrite (proj2 (div_iff _ _ _) (conj N1 eq_refl)). cbn [rbind]. rewrite (proj2 (div_iff _ _ _) (conj N2 eq_refl)). cbn [rbind]. rewrite (proj2 (div_iff _ _ _) (conj N3 eq_refl)). cbn [rbind].
    apply ceil_iff in CX, CY. rewrite CX, CY. cbv zeta. assert (EZ : Z.max (math_ceil (num_val maxZ / dz)) 1 = Zs /\ (method = AMPERE -> Zs = 1%Z) /\ (1 <= Zs)%Z).
    { destruct CZ as [[-> L]|(M & L & C)]; [split; [|split; [reflexivity|lia]]|].
      - apply Z.max_r. pose proof (proj1 (ceil_iff (num_val maxZ / dz) _) eq_refl) as [C _]. assert (T : (math_ceil (num_val maxZ / dz) < 2)%Z) by (apply lt_IZR; lra). lia.
      - apply ceil_iff in C. rewrite C. split; [lia|]. split; [rewrite M; discriminate|lia]. }
    destruct EZ as (-> & EM & PZ). rewrite (proj2 (init_iff X Y Zs dx dy dz (fresh_blocks X Y Zs dx dy dz))); [|repeat split; try assumption; lia]. destruct method; [rewrite (EM eq_refl); reflexivity|reflexivity].
Qed.

(** ** Currents of a region *)
Lemma at_ok s x y z : built s -> (0 <= x < s_X s)%Z -> (- s_Y s <= y < s_Y s)%Z -> (0 <= z < s_Z s)%Z ->
  let y' := if (y <? 0)%Z then (y + s_Y s)%Z else y in (0 <= y' < s_Y s)%Z /\ block_at s x y z = Ok (spot (s_Y s) (s_Z s) x y' z).
Proof.
  intros B Hx Hy Hz. cbv zeta. unfold block_at. cbv zeta. destruct (Z.ltb_spec y 0).
  - split; [lia|]. destruct (Z.ltb_spec (y + s_Y s) 0); [lia|]. destruct (Z.leb_spec (s_Y s) (y + s_Y s)); [lia|]. reflexivity.
  - split; [lia|]. destruct (Z.ltb_spec y 0); [lia|]. destruct (Z.leb_spec (s_Y s) y); [lia|]. reflexivity.
Qed.
Lemma at_fail s x y z : (y < - s_Y s)%Z -> exists e, block_at s x y z = Err e.
Proof. intros H. unfold block_at. cbv zeta. destruct (Z.ltb_spec y 0); [|exists (Throw "index is out of bounds for axis 1")%string; destruct (Z.ltb_spec y 0); [lia|]; destruct (Z.leb_spec (s_Y s) y); [reflexivity|lia]]. destruct (Z.ltb_spec (y + s_Y s) 0); [|lia]. eexists. reflexivity. Qed.
(** Writing the same current to a list of positions. *)
Lemma set_all m ks : forall s, (forall k, In k ks -> (k < length (s_blocks s))%nat) ->
  exists l, each (fun k => update_block (set_I m) k) ks s = (with_blocks l s, Ok tt) /\ changed (fun k b => if in_dec Nat.eq_dec k ks then set_I m b else b) (s_blocks s) l.
Proof.
  induction ks as [|j ks IH]; intros s L.
  - exists (s_blocks s). split; [cbn; rewrite with_blocks_id; reflexivity|]. intros k. cbn. destruct (nth_error (s_blocks s) k); reflexivity.
  - cbn [each]. unfold bind. assert (Lj : (j < length (s_blocks s))%nat) by (apply L; left; reflexivity). apply nth_error_Some in Lj. destruct (nth_error (s_blocks s) j) as [b|] eqn:Ej; [|contradiction]. rewrite (update_ok _ _ _ _ Ej).
    destruct (IH (with_blocks (set_nth j (set_I m b) (s_blocks s)) s)) as (l & E & C). { intros k Hk. cbn [s_blocks with_blocks]. rewrite set_nth_len. apply L. right. exact Hk. }
    exists l. rewrite E. split; [reflexivity|]. intros k. rewrite (C k). cbn [s_blocks with_blocks]. rewrite set_nth_nth.
    destruct (Nat.eqb_spec k j) as [->|N].
    + rewrite Ej. cbn [option_map]. destruct (in_dec Nat.eq_dec j (j :: ks)) as [|n]; [|exfalso; apply n; left; reflexivity]. destruct (in_dec Nat.eq_dec j ks); reflexivity.
    + destruct (nth_error (s_blocks s) k); [|reflexivity]. cbn [option_map]. destruct (in_dec Nat.eq_dec k ks) as [i|n]; destruct (in_dec Nat.eq_dec k (j :: ks)) as [i'|n']; try reflexivity; [exfalso; apply n'; right; exact i|destruct i' as [i'|i']; [congruence|contradiction]].
Qed.
Lemma rmin_dec a b : (if Rlt_dec b a then b else a) = Rmin a b.
Proof. unfold Rmin. destruct (Rlt_dec b a), (Rle_dec a b); lra. Qed.
Definition row_cells (s : structure) (lo e : Z) : list (Z * Z * Z) := flat_map (fun y => flat_map (fun x => map (fun z => (x, y, z)) (zrange 0 (s_Z s))) (zrange 0 (s_X s))) (zrange lo e).
Lemma row_cells_in s lo e x y z : In (x, y, z) (row_cells s lo e) <-> (0 <= x < s_X s)%Z /\ (lo <= y < e)%Z /\ (0 <= z < s_Z s)%Z.
Proof.
  unfold row_cells. rewrite in_flat_map. split.
  - intros (y' & Hy & H). apply in_flat_map in H. destruct H as (x' & Hx & H). apply in_map_iff in H. destruct H as (z' & E & Hz). apply zrange_in in Hx, Hy, Hz. injection E as -> -> ->. tauto.
  - intros (Hx & Hy & Hz). exists y. split; [apply zrange_in, Hy|]. apply in_flat_map. exists x. split; [apply zrange_in, Hx|]. apply in_map_iff. exists z. split; [reflexivity|apply zrange_in, Hz].
Qed.
Lemma loop_cells {S} s (f : Z -> Z -> Z -> ST S unit) lo e : forall t, each (fun y => each (fun x => each (fun z => f x y z) (zrange 0 (s_Z s))) (zrange 0 (s_X s))) (zrange lo e) t = each (fun p => f (fst (fst p)) (snd (fst p)) (snd p)) (row_cells s lo e) t.
Proof.
  intros t. unfold row_cells. rewrite each_flat. apply each_ext. intros y u. rewrite each_flat. apply each_ext. intros x v. rewrite each_map. reflexivity.
Qed.
Definition cell_spot (s : structure) (p : Z * Z * Z) : nat := let '(x, y, z) := p in spot (s_Y s) (s_Z s) x (if (y <? 0)%Z then (y + s_Y s)%Z else y) z.
Lemma write_cells m ps : forall s t, (forall x y z, In (x, y, z) ps -> block_at s x y z = Ok (cell_spot s (x, y, z))) ->
  each (fun p => k <- lift (block_at s (fst (fst p)) (snd (fst p)) (snd p)) ;; update_block (set_I m) k) ps t = each (fun k => update_block (set_I m) k) (map (cell_spot s) ps) t.
Proof.
  induction ps as [|[[x y] z] ps IH]; intros s t H; [reflexivity|]. cbn [each map fst snd]. unfold bind at 1 2. unfold lift at 1. unfold bind at 1. rewrite (H x y z) by (left; reflexivity). unfold bind at 1. destruct (update_block (set_I m) (cell_spot s (x, y, z)) t) as [t' [u|er]]; [|reflexivity]. apply IH. intros; apply H; right; assumption.
Qed.
(** The outcome of the loop over rows lo .. e-1. *)
Lemma region_loop m s lo e : built s -> (e <= s_Y s)%Z ->
  let run := each (fun y => each (fun x => each (fun z => k <- lift (block_at s x y z) ;; update_block (set_I m) k) (zrange 0 (s_Z s))) (zrange 0 (s_X s))) (zrange lo e) s in
  ((s_X s = 0 \/ e <= lo \/ - s_Y s <= lo)%Z -> run = (with_blocks (map (fun b => if in_rows (s_Y s) lo e (b_iy b) then set_I m b else b) (s_blocks s)) s, Ok tt)) /\
  ((0 < s_X s /\ lo < e /\ lo < - s_Y s)%Z -> exists er, run = (s, Err er)).
Proof.
  intros B He. cbv zeta. rewrite (loop_cells s (fun x y z => k <- lift (block_at s x y z) ;; update_block (set_I m) k)). pose proof B as (B1 & B2 & B3 & _). split.
  - intros C. assert (IN : forall x y z, In (x, y, z) (row_cells s lo e) -> (0 <= x < s_X s)%Z /\ (- s_Y s <= y < s_Y s)%Z /\ (0 <= z < s_Z s)%Z /\ (lo <= y < e)%Z) by (intros x y z H; apply row_cells_in in H; lia).
    rewrite write_cells. 2:{ intros x y z H. destruct (IN x y z H) as (H1 & H2 & H3 & _). apply at_ok; assumption. }
    destruct (set_all m (map (cell_spot s) (row_cells s lo e)) s) as (l & E & Ch).
    { intros k Hk. apply in_map_iff in Hk. destruct Hk as ([[x y] z] & <- & H). destruct (IN x y z H) as (H1 & H2 & H3 & _). destruct (at_ok s x y z B H1 H2 H3) as [Hy' _]. destruct (built_nth s x _ z B H1 Hy' H3) as (b & Hb & _). apply nth_error_Some. unfold cell_spot. rewrite Hb. discriminate. }
    rewrite E. f_equal. f_equal. apply nth_ext'. intros k. rewrite (Ch k), nth_error_map. destruct (nth_error (s_blocks s) k) as [b|] eqn:Hk; [|reflexivity]. cbn [option_map]. f_equal. pose proof (built_spot s k b B Hk) as Ek. destruct (built_place s b B (nth_error_In _ _ Hk)) as (P1 & P2 & P3).
    assert (Q : In k (map (cell_spot s) (row_cells s lo e)) <-> in_rows (s_Y s) lo e (b_iy b) = true).
    { rewrite in_map_iff. unfold in_rows. rewrite orb_true_iff, !andb_true_iff, !Z.leb_le, !Z.ltb_lt. split.
      - intros ([[x y] z] & Es & H). destruct (IN x y z H) as (H1 & H2 & H3 & H4). destruct (at_ok s x y z B H1 H2 H3) as [Hy' _]. destruct (built_nth s x _ z B H1 Hy' H3) as (o & Ho & Po). unfold cell_spot in Es. rewrite Es, Hk in Ho. injection Ho as <-. unfold place in Po. pose proof (f_equal (fun p => snd (fst p)) Po) as Pe. cbn [fst snd] in Pe. rewrite Pe. destruct (Z.ltb_spec y 0); [right|left]; lia.
      - intros [H|H]; [exists (b_ix b, b_iy b, b_iz b)|exists (b_ix b, b_iy b - s_Y s, b_iz b)%Z]; (split; [|apply row_cells_in; repeat split; lia]); unfold cell_spot; [destruct (Z.ltb_spec (b_iy b) 0); [lia|]; symmetry; exact Ek|]. destruct (Z.ltb_spec (b_iy b - s_Y s) 0); [|lia]. rewrite Ek. f_equal. lia. }
    destruct (in_dec Nat.eq_dec k _) as [i|n]; destruct (in_rows _ _ _ _); try reflexivity; [apply Q in i; discriminate|exfalso; apply n, Q; reflexivity].
  - intros (C1 & C2 & C3). assert (E : exists ps, row_cells s lo e = (0%Z, lo, 0%Z) :: ps).
    { unfold row_cells. assert (ZR : forall a b, (a < b)%Z -> exists t, zrange a b = a :: t). { intros a b Hab. unfold zrange. replace (Z.to_nat (b - a)) with (S (Z.to_nat (b - a) - 1)) by lia. cbn [seq map]. eexists. f_equal. lia. }
      destruct (ZR lo e C2) as [t1 ->]. destruct (ZR 0%Z (s_X s) C1) as [t2 ->]. destruct (ZR 0%Z (s_Z s)) as [t3 ->]; [lia|]. cbn [flat_map map app]. eexists. reflexivity. }
    destruct E as [ps ->]. cbn [each fst snd]. destruct (at_fail s 0 lo 0 C3) as [er E]. exists er. unfold bind, lift. rewrite E. reflexivity.
Qed.
Lemma set_region_iff I lo hi s s' : built s -> set_region_I_idx I lo hi s = (s', Ok tt) <->
  exists e, region_end s hi e /\ (0 < s_X s)%Z /\ Rmin (region_top s hi + 1) (IZR (s_Y s)) <> IZR lo /\ (e <= lo \/ - s_Y s <= lo)%Z /\
  s' = with_blocks (map (fun b => if in_rows (s_Y s) lo e (b_iy b) then set_I (region_share s I lo hi) b else b) (s_blocks s)) s.
Proof.
  intros B. unfold set_region_I_idx, region_end, region_share. cbv zeta. unfold bind at 1. unfold get at 1. pose proof B as (B1 & B2 & B3 & _).
  assert (T : num_val (if Req_EM_T (num_val hi) (-1) then PInt (s_Y s) else hi) = region_top s hi) by (unfold region_top; destruct (Req_EM_T (num_val hi) (-1)); reflexivity).
  rewrite T. rewrite rmin_dec. set (top := region_top s hi) in *. unfold bind at 1. unfold lift at 1.
  destruct (py_div I (IZR (s_X s) * (Rmin (top + 1) (IZR (s_Y s)) - IZR lo))) as [m|er] eqn:D.
  - apply div_iff in D. destruct D as [N ->]. assert (NX : (0 < s_X s)%Z). { destruct (Z.eq_dec (s_X s) 0) as [E|]; [|lia]. exfalso. apply N. rewrite E. ring. }
    assert (NL : Rmin (top + 1) (IZR (s_Y s)) <> IZR lo) by (intros E; apply N; rewrite E; ring). set (m := I / _). unfold bind at 1. unfold lift at 1.
    assert (K : forall e, (e <= s_Y s)%Z -> (each (fun y => each (fun x => each (fun z => k <- lift (block_at s x y z) ;; update_block (set_I m) k) (zrange 0 (s_Z s))) (zrange 0 (s_X s))) (zrange lo e) s = (s', Ok tt) <-> (e <= lo \/ - s_Y s <= lo)%Z /\ s' = with_blocks (map (fun b => if in_rows (s_Y s) lo e (b_iy b) then set_I m b else b) (s_blocks s)) s)).
    { intros e He. destruct (region_loop m s lo e B He) as [H1 H2]. destruct (Z_le_gt_dec e lo) as [c|c]; [|destruct (Z_le_gt_dec (- s_Y s) lo) as [d|d]].
      - rewrite H1 by (right; left; exact c). split; [intros E; injection E as <-; split; [left; exact c|reflexivity]|intros [_ ->]; reflexivity].
      - rewrite H1 by (right; right; exact d). split; [intros E; injection E as <-; split; [right; exact d|reflexivity]|intros [_ ->]; reflexivity].
      - destruct H2 as [er ->]; [lia|]. split; [discriminate|lia]. }
    destruct (Rlt_dec (IZR (s_Y s)) top) as [L|L].
    + rewrite K by lia. split; [intros [C ->]; exists (s_Y s); split; [left; split; [exact L|reflexivity]|]; repeat (split; [assumption|]); reflexivity|]. intros (e & [[_ ->]|[L' _]] & _ & _ & C & ->); [|lra]. split; [exact C|reflexivity].
    + destruct (Req_EM_T (num_val hi) (-1)) as [M|M].
      * cbn [num_val] in T. rewrite K by lia. split.
        { intros [C ->]. exists (s_Y s). split; [right; split; [lra|]; split; [exact T|left; exact M]|]. repeat (split; [assumption|]). reflexivity. }
        intros (e & [[L' _]|(_ & E & _)] & _ & _ & C & ->); [lra|]. rewrite <- T in E. apply eq_IZR in E. subst e. split; [exact C|reflexivity].
      * destruct hi as [z|x]; cbn [num_val] in T, M.
        -- assert (Lz : (z <= s_Y s)%Z) by (apply le_IZR; lra). rewrite K by exact Lz. split.
           { intros [C ->]. exists z. split; [right; split; [lra|]; split; [exact T|right; reflexivity]|]. repeat (split; [assumption|]). reflexivity. }
           intros (e & [[L' _]|(_ & E & _)] & _ & _ & C & ->); [lra|]. rewrite <- T in E. apply eq_IZR in E. subst e. split; [exact C|reflexivity].
        -- split; [discriminate|]. intros (e & [[L' _]|(_ & _ & [E|E])] & _); [lra|contradiction|discriminate].
  - split; [discriminate|]. intros (e & _ & NX & NL & _). exfalso. unfold py_div in D. destruct (Req_EM_T _ 0) as [E|]; [|discriminate]. apply Rmult_integral in E. destruct E as [E|E]; [apply eq_IZR in E; lia|]. apply NL. lra.
Qed.
Lemma set_region_fail I lo hi s s' er : built s -> set_region_I_idx I lo hi s = (s', Err er) -> s' = s.
Proof.
  intros B. unfold set_region_I_idx. cbv zeta. unfold bind at 1. unfold get at 1. unfold bind at 1. unfold lift at 1. destruct (py_div _ _) as [m|e']; [|congruence]. unfold bind at 1. unfold lift at 1.
  set (st := if Rlt_dec (IZR (s_Y s)) (num_val (if Req_EM_T (num_val hi) (-1) then PInt (s_Y s) else hi)) then _ else _).
  assert (L : forall e, st = Ok e -> (e <= s_Y s)%Z). { intros e. unfold st. destruct (Rlt_dec _ _) as [l|l]; [intros H; injection H as <-; lia|]. destruct (Req_EM_T (num_val hi) (-1)); [intros H; injection H as <-; lia|]. destruct hi; [|discriminate]. cbn [num_val] in l. intros H; injection H as <-. apply le_IZR. lra. }
  destruct st as [e|]; [|congruence]. specialize (L e eq_refl). destruct (region_loop m s lo e B L) as [H1 H2]. destruct (Z.eq_dec (s_X s) 0) as [x|x]; [rewrite H1 by (left; exact x); discriminate|]. destruct (Z_le_gt_dec e lo) as [c|c]; [rewrite H1 by (right; left; exact c); discriminate|]. destruct (Z_le_gt_dec (- s_Y s) lo) as [d|d]; [rewrite H1 by (right; right; exact d); discriminate|].
  destruct H2 as [er' ->]; [destruct B; lia|]. congruence.
Qed.

(** ** Fields of all blocks *)
Definition block0 : block := newBlock 0 0 0 0 0 0.
Definition pull (l : list block) (k j : nat) : R := ampere_field (nth k l block0) (nth j l block0).
Definition clash (l : list block) (p : nat * nat) : Prop := centre_distance (nth (fst p) l block0) (nth (snd p) l block0) = 0.
Definition gain (l : list block) (ps : list (nat * nat)) (k : nat) : R := total (fun p => (if Nat.eqb (fst p) k then pull l k (snd p) else 0) + (if Nat.eqb (snd p) k then pull l k (fst p) else 0)) ps.
Lemma add_H_add u v b : add_H u (add_H v b) = add_H (v + u) b. Proof. unfold add_H. cbn. f_equal. ring. Qed.
Lemma add_H_0 b : add_H 0 b = b. Proof. destruct b. unfold add_H. cbn. f_equal. ring. Qed.
Lemma ampere_add u v b o h : block_ampere (add_H u b) (add_H v o) = Ok h <-> block_ampere b o = Ok h. Proof. reflexivity. Qed.
Lemma pair_step l acc s i j dx dy dz : (forall b, In b l -> sized dx dy dz b) -> changed (fun k b => add_H (acc k) b) l (s_blocks s) -> i <> j -> (i < length l)%nat -> (j < length l)%nat ->
  (~ clash l (i, j) -> exists m, compute_pair i j s = (with_blocks m s, Ok tt) /\ changed (fun k b => add_H (acc k + gain l [(i, j)] k) b) l m) /\ (clash l (i, j) -> exists er, compute_pair i j s = (s, Err er)).
Proof.
  intros Sz Ch N Li Lj. unfold clash. cbn [fst snd].
  destruct (nth_error l i) as [b|] eqn:Eb; [|apply nth_error_None in Eb; lia]. destruct (nth_error l j) as [o|] eqn:Eo; [|apply nth_error_None in Eo; lia].
  rewrite (nth_error_nth _ _ block0 Eb), (nth_error_nth _ _ block0 Eo). destruct (Sz b (nth_error_In _ _ Eb)) as (S1 & S2 & _). destruct (Sz o (nth_error_In _ _ Eo)) as (S3 & S4 & _).
  pose proof (Ch i) as Ci. rewrite Eb in Ci. cbn [option_map] in Ci. pose proof (Ch j) as Cj. rewrite Eo in Cj. cbn [option_map] in Cj. assert (E1 : b_dx b = b_dx o) by congruence. assert (E2 : b_dy b = b_dy o) by congruence. assert (E3 : b_dx o = b_dx b) by congruence. assert (E4 : b_dy o = b_dy b) by congruence.
  unfold compute_pair. unfold bind at 1. unfold get at 1. unfold bind at 1. unfold lift at 1. rewrite (proj2 (row_nth _ _ _) Ci). unfold bind at 1. unfold lift at 1. rewrite (proj2 (row_nth _ _ _) Cj). unfold bind at 1. unfold lift at 1. split.
  - intros D. assert (D' : centre_distance o b <> 0) by (rewrite (distance_sym o b E3 E4); exact D). rewrite (proj2 (ampere_add _ _ b o _) (proj2 (ampere_iff b o _ E1 E2) (conj D eq_refl))). unfold bind at 1. unfold lift at 1. rewrite (proj2 (ampere_add _ _ o b _) (proj2 (ampere_iff o b _ E3 E4) (conj D' eq_refl))).
    unfold bind at 1. rewrite (update_ok _ _ _ _ Ci). rewrite (update_ok _ _ (with_blocks _ s) (add_H (acc j) o)). 2:{ cbn [s_blocks with_blocks]. rewrite set_nth_nth. destruct (Nat.eqb_spec j i); [congruence|]. exact Cj. }
    eexists. split; [reflexivity|]. intros k. cbn [s_blocks with_blocks]. rewrite !set_nth_nth. unfold gain, total, pull. cbn [fold_right fst snd]. rewrite (nth_error_nth _ _ block0 Eb), (nth_error_nth _ _ block0 Eo).
    destruct (Nat.eqb_spec k j) as [->|Nj].
    + destruct (Nat.eqb_spec j i) as [E|_]; [congruence|]. rewrite Cj, Eo. cbn [option_map]. destruct (Nat.eqb_spec i j) as [E|_]; [congruence|]. rewrite Nat.eqb_refl. rewrite add_H_add. rewrite (nth_error_nth _ _ block0 Eo). f_equal. f_equal. ring.
    + destruct (Nat.eqb_spec k i) as [->|Ni].
      * rewrite Ci, Eb. cbn [option_map]. rewrite Nat.eqb_refl. destruct (Nat.eqb_spec j i) as [E|_]; [congruence|]. rewrite add_H_add. rewrite (nth_error_nth _ _ block0 Eb). f_equal. f_equal. ring.
      * rewrite (Ch k). destruct (Nat.eqb_spec i k); [congruence|]. destruct (Nat.eqb_spec j k); [congruence|]. destruct (nth_error l k); [|reflexivity]. cbn [option_map]. f_equal. f_equal. ring.
  - intros D. destruct (block_ampere (add_H (acc i) b) (add_H (acc j) o)) as [h|er] eqn:E; [apply ampere_add, (ampere_iff b o _ E1 E2) in E; tauto|]. exists er. unfold bind, get, lift. rewrite (proj2 (row_nth _ _ _) Ci), (proj2 (row_nth _ _ _) Cj), E. reflexivity.
Qed.
Lemma pairs_loop l dx dy dz : (forall b, In b l -> sized dx dy dz b) -> forall ps acc s, (forall i j, In (i, j) ps -> i <> j /\ (i < length l)%nat /\ (j < length l)%nat) -> changed (fun k b => add_H (acc k) b) l (s_blocks s) ->
  ((forall p, In p ps -> ~ clash l p) -> exists m, each (fun p => compute_pair (fst p) (snd p)) ps s = (with_blocks m s, Ok tt) /\ changed (fun k b => add_H (acc k + gain l ps k) b) l m) /\
  ((exists p, In p ps /\ clash l p) -> exists s' er, each (fun p => compute_pair (fst p) (snd p)) ps s = (s', Err er)).
Proof.
  intros Sz. induction ps as [|[i j] ps IH]; intros acc s Hp Ch.
  - split; [|intros (p & [] & _)]. intros _. exists (s_blocks s). split; [cbn; rewrite with_blocks_id; reflexivity|]. intros k. rewrite (Ch k). unfold gain, total. cbn. destruct (nth_error l k); [|reflexivity]. cbn. f_equal. f_equal. ring.
  - destruct (Hp i j (or_introl eq_refl)) as (Nij & Li & Lj). destruct (pair_step l acc s i j dx dy dz Sz Ch Nij Li Lj) as [H1 H2]. assert (Hp' : forall i j, In (i, j) ps -> i <> j /\ (i < length l)%nat /\ (j < length l)%nat) by (intros; apply Hp; right; assumption).
    cbn [each fst snd]. unfold bind. destruct (Req_EM_T (centre_distance (nth i l block0) (nth j l block0)) 0) as [D|D].
    + destruct (H2 D) as [er E]. rewrite E. split; [intros A; exfalso; exact (A (i, j) (or_introl eq_refl) D)|]. intros _. eexists _, _. reflexivity.
    + destruct (H1 D) as (m & E & Cm). rewrite E. destruct (IH (fun k => acc k + gain l [(i, j)] k) (with_blocks m s) Hp' Cm) as [I1 I2]. split.
      * intros A. destruct I1 as (n & En & Cn); [intros p Q; apply A; right; exact Q|]. exists n. rewrite En. split; [reflexivity|]. intros k. rewrite (Cn k). destruct (nth_error l k); [|reflexivity]. cbn [option_map]. f_equal. f_equal. unfold gain, total. cbn [fold_right]. ring.
      * intros (p & [<-|Q] & Cp); [contradiction|]. apply I2. exists p. tauto.
Qed.
Definition all_pairs (n : nat) : list (nat * nat) := flat_map (fun i => map (fun j => (i, j)) (seq (S i) (n - S i))) (seq 0 n).
Lemma all_pairs_in n i j : In (i, j) (all_pairs n) <-> (i < j < n)%nat.
Proof.
  unfold all_pairs. rewrite in_flat_map. split; [intros (i' & Hi & H); apply in_map_iff in H; destruct H as (j' & E & H); injection E as -> ->; apply in_seq in H, Hi; lia|].
  intros H. exists i. split; [apply in_seq; lia|]. apply in_map_iff. exists j. split; [reflexivity|]. apply in_seq. lia.
Qed.
Lemma total_seq_only (f : nat -> R) k a n : total (fun i => if Nat.eqb i k then f i else 0) (seq a n) = if (Nat.leb a k && Nat.ltb k (a + n))%bool then f k else 0.
Proof.
  destruct (Nat.leb_spec a k); destruct (Nat.ltb_spec k (a + n)); cbn [andb].
  1: apply (total_only f (fun i => Nat.eqb i k)); [apply seq_NoDup|apply in_seq; lia|intros; apply Nat.eqb_eq].
  all: apply total_zero; intros i Hi; apply in_seq in Hi; destruct (Nat.eqb_spec i k); [lia|reflexivity].
Qed.
Lemma total_seq_split (f : nat -> R) n k : (k < n)%nat -> total f (seq 0 n) = total f (seq 0 k) + f k + total f (seq (S k) (n - S k)).
Proof. intros H. replace n with (k + S (n - S k))%nat at 1 by lia. rewrite seq_app, total_app. cbn [seq Nat.add]. change (total f (k :: seq (S k) (n - S k))) with (f k + total f (seq (S k) (n - S k))). ring. Qed.
Lemma gain_all l k : (k < length l)%nat -> gain l (all_pairs (length l)) k = total (fun j => if Nat.eqb j k then 0 else pull l k j) (seq 0 (length l)).
Proof.
  intros Hk. set (n := length l) in *. unfold gain, all_pairs. rewrite total_flat. rewrite (total_ext _ (fun i => (if Nat.eqb i k then total (pull l k) (seq (S i) (n - S i)) else 0) + (if (Nat.ltb i k) then pull l k i else 0))).
  - rewrite total_plus, (total_seq_only (fun i => total (pull l k) (seq (S i) (n - S i)))). destruct (Nat.leb_spec 0 k); [|lia]. destruct (Nat.ltb_spec k (0 + n)); [|lia]. cbn [andb]. rewrite !(total_seq_split _ n k) by exact Hk. rewrite Nat.eqb_refl, Nat.ltb_irrefl.
    rewrite (total_ext (fun i => if Nat.ltb i k then pull l k i else 0) (pull l k) (seq 0 k)) by (intros i Hi; apply in_seq in Hi; destruct (Nat.ltb_spec i k); [reflexivity|lia]).
    rewrite (total_zero (fun i => if Nat.ltb i k then pull l k i else 0) (seq (S k) (n - S k))) by (intros i Hi; apply in_seq in Hi; destruct (Nat.ltb_spec i k); [lia|reflexivity]).
    rewrite (total_ext (fun j => if Nat.eqb j k then 0 else pull l k j) (pull l k) (seq 0 k)) by (intros i Hi; apply in_seq in Hi; destruct (Nat.eqb_spec i k); [lia|reflexivity]).
    rewrite (total_ext (fun j => if Nat.eqb j k then 0 else pull l k j) (pull l k) (seq (S k) (n - S k))) by (intros i Hi; apply in_seq in Hi; destruct (Nat.eqb_spec i k); [lia|reflexivity]). ring.
  - intros i Hi. apply in_seq in Hi. rewrite total_map. cbn [fst snd]. rewrite total_plus. f_equal.
    + destruct (Nat.eqb_spec i k) as [->|]; [reflexivity|]. apply total_zero. reflexivity.
    + rewrite (total_seq_only (fun _ => pull l k i)). destruct (Nat.ltb_spec i k); destruct (Nat.leb_spec (S i) k); try lia; cbn [andb]; [|reflexivity]. destruct (Nat.ltb_spec k (S i + (n - S i))); [reflexivity|lia].
Qed.
Lemma total_nth {A} (f : A -> R) d l : total f l = total (fun j => f (nth j l d)) (seq 0 (length l)).
Proof. induction l as [|a l IH]; [reflexivity|]. cbn [length seq]. rewrite <- seq_shift. change (f a + total f l = f a + total (fun j => f (nth j (a :: l) d)) (map S (seq 0 (length l)))). rewrite total_map, IH. reflexivity. Qed.
Lemma field_gain s k b : built s -> nth_error (s_blocks s) k = Some b -> gain (s_blocks s) (all_pairs (length (s_blocks s))) k = field_at (s_blocks s) b.
Proof.
  intros B Hk. assert (L : (k < length (s_blocks s))%nat) by (apply nth_error_Some; rewrite Hk; discriminate). rewrite (gain_all _ _ L). unfold field_at. rewrite (total_nth _ block0). apply total_ext. intros j Hj. apply in_seq in Hj.
  destruct (nth_error (s_blocks s) j) as [o|] eqn:Ho; [|apply nth_error_None in Ho; lia]. unfold pull. rewrite (nth_error_nth _ _ block0 Hk), (nth_error_nth _ _ block0 Ho).
  destruct (Nat.eqb_spec j k) as [->|N]; [rewrite Hk in Ho; injection Ho as <-; rewrite (proj2 (eq_iff b b) eq_refl); reflexivity|]. destruct (block_eq b o) eqn:E; [|reflexivity]. apply eq_iff in E. exfalso. apply N. symmetry. exact (built_inj s k j b o B Hk Ho E).
Qed.
Lemma compute_loop s : compute_blocks s = each (fun p => compute_pair (fst p) (snd p)) (all_pairs (length (s_blocks s))) s.
Proof. unfold compute_blocks, all_pairs. unfold bind at 1. unfold get at 1. cbv zeta. rewrite each_flat. apply each_ext. intros i t. rewrite each_map. reflexivity. Qed.
Lemma flat_clash s : built s -> (forall p, In p (all_pairs (length (s_blocks s))) -> ~ clash (s_blocks s) p) <-> (s_Z s = 1 \/ s_X s = 0 \/ s_Y s = 0)%Z.
Proof.
  intros B. pose proof B as (B1 & B2 & B3 & B4 & B5 & _ & F). rewrite Forall_forall in F. split.
  - intros H. destruct (Z.eq_dec (s_Z s) 1); [tauto|]. destruct (Z.eq_dec (s_X s) 0); [tauto|]. destruct (Z.eq_dec (s_Y s) 0); [tauto|]. exfalso.
    destruct (built_nth s 0 0 0 B) as (b & Hb & Pb); try lia. destruct (built_nth s 0 0 1 B) as (o & Ho & Po); try lia.
    assert (K0 : spot (s_Y s) (s_Z s) 0 0 0 = 0%nat) by (unfold spot; replace ((0 * s_Y s + 0) * s_Z s + 0)%Z with 0%Z by ring; reflexivity). assert (K1 : spot (s_Y s) (s_Z s) 0 0 1 = 1%nat) by (unfold spot; replace ((0 * s_Y s + 0) * s_Z s + 1)%Z with 1%Z by ring; reflexivity).
    rewrite K0 in Hb. rewrite K1 in Ho. assert (L : (1 < length (s_blocks s))%nat) by (apply nth_error_Some; rewrite Ho; discriminate).
    apply (H (0%nat, 1%nat)); [apply all_pairs_in; lia|]. unfold clash. cbn [fst snd]. rewrite (nth_error_nth _ _ block0 Hb), (nth_error_nth _ _ block0 Ho). destruct (F b (nth_error_In _ _ Hb)) as (S1 & S2 & _). apply distance_zero; [congruence|congruence|]. unfold place in Pb, Po. split; congruence.
  - intros H [i j] Hp C. apply all_pairs_in in Hp. unfold clash in C. cbn [fst snd] in C. destruct (nth_error (s_blocks s) i) as [b|] eqn:Hb; [|apply nth_error_None in Hb; lia]. destruct (nth_error (s_blocks s) j) as [o|] eqn:Ho; [|apply nth_error_None in Ho; lia].
    rewrite (nth_error_nth _ _ block0 Hb), (nth_error_nth _ _ block0 Ho) in C. destruct (F b (nth_error_In _ _ Hb)) as (S1 & S2 & _). apply distance_zero in C; [|congruence|congruence].
    destruct (built_place s b B (nth_error_In _ _ Hb)) as (P1 & P2 & P3). destruct (built_place s o B (nth_error_In _ _ Ho)) as (Q1 & Q2 & Q3). assert (E : i = j); [|lia]. apply (built_inj s i j b o B Hb Ho). unfold place. destruct C as [C1 C2]. assert (C3 : b_iz b = b_iz o) by lia. congruence.
Qed.
Lemma compute_iff s s' : built s -> compute_blocks s = (s', Ok tt) <->
  (s_Z s = 1 \/ s_X s = 0 \/ s_Y s = 0)%Z /\ s' = with_blocks (map (fun b => add_H (field_at (s_blocks s) b) b) (s_blocks s)) s.
Proof.
  intros B. rewrite compute_loop. pose proof B as (B1 & B2 & B3 & B4 & B5 & _ & F). rewrite Forall_forall in F.
  destruct (pairs_loop (s_blocks s) _ _ _ F (all_pairs (length (s_blocks s))) (fun _ => 0) s) as [H1 H2].
  { intros i j H. apply all_pairs_in in H. lia. }
  { intros k. destruct (nth_error (s_blocks s) k); [|reflexivity]. cbn. rewrite add_H_0. reflexivity. }
  pose proof (flat_clash s B) as FC. split.
  - intros H. assert (A : forall p, In p (all_pairs (length (s_blocks s))) -> ~ clash (s_blocks s) p) by (intros p Hp C; destruct H2 as (t & er & E); [exists p; tauto|]; rewrite E in H; discriminate). split; [apply FC, A|].
    destruct (H1 A) as (m & E & C). rewrite E in H. injection H as <-. f_equal. apply nth_ext'. intros k. rewrite (C k), nth_error_map. destruct (nth_error (s_blocks s) k) as [b|] eqn:Hk; [|reflexivity]. cbn [option_map]. rewrite (field_gain s k b B Hk). f_equal. f_equal. ring.
  - intros [A ->]. destruct (H1 (proj2 FC A)) as (m & E & C). rewrite E. f_equal. f_equal. apply nth_ext'. intros k. rewrite (C k), nth_error_map. destruct (nth_error (s_blocks s) k) as [b|] eqn:Hk; [|reflexivity]. cbn [option_map]. rewrite (field_gain s k b B Hk). f_equal. f_equal. ring.
Qed.

(** ** Sums over regions *)
Definition look (s : structure) (p : Z * Z * Z) : block := nth (cell_spot s p) (s_blocks s) block0.
Lemma look_nth s x y z : built s -> (0 <= x < s_X s)%Z -> (0 <= y < s_Y s)%Z -> (0 <= z < s_Z s)%Z -> nth_error (s_blocks s) (cell_spot s (x, y, z)) = Some (look s (x, y, z)) /\ place (look s (x, y, z)) = (x, y, z).
Proof.
  intros B Hx Hy Hz. unfold look, cell_spot. destruct (Z.ltb_spec y 0); [lia|]. destruct (built_nth s x y z B Hx Hy Hz) as (b & Hb & P). rewrite (nth_error_nth _ _ block0 Hb). split; assumption.
Qed.
Lemma look_wrap s x y z : built s -> (0 <= x < s_X s)%Z -> (- s_Y s <= y < s_Y s)%Z -> (0 <= z < s_Z s)%Z -> nth_error (s_blocks s) (cell_spot s (x, y, z)) = Some (look s (x, y mod s_Y s, z)%Z).
Proof.
  intros B Hx Hy Hz. assert (E : (y mod s_Y s)%Z = if (y <? 0)%Z then (y + s_Y s)%Z else y).
  { destruct (Z.ltb_spec y 0); [|apply Z.mod_small; lia]. symmetry. apply (Z.mod_unique y (s_Y s) (-1)); lia. }
  assert (R0 : (0 <= y mod s_Y s < s_Y s)%Z) by (apply Z.mod_pos_bound; lia). destruct (look_nth s x _ z B Hx R0 Hz) as [H _]. rewrite <- H. f_equal. unfold cell_spot. rewrite E. destruct (Z.ltb_spec y 0); [destruct (Z.ltb_spec (y + s_Y s) 0); [lia|reflexivity]|]. destruct (Z.ltb_spec y 0); [lia|reflexivity].
Qed.
Lemma blocks_look s : built s -> s_blocks s = map (look s) (grid (s_X s) (s_Y s) (s_Z s)).
Proof.
  intros B. pose proof B as (_ & _ & _ & _ & _ & G & _). rewrite <- G, map_map. apply nth_ext'. intros k. rewrite nth_error_map. destruct (nth_error (s_blocks s) k) as [b|] eqn:Hk; [|reflexivity]. cbn [option_map]. f_equal.
  destruct (built_place s b B (nth_error_In _ _ Hk)) as (P1 & P2 & P3). destruct (look_nth s _ _ _ B P1 P2 P3) as [L _]. rewrite (built_spot s k b B Hk) in Hk. unfold cell_spot in L at 1. destruct (Z.ltb_spec (b_iy b) 0); [lia|]. rewrite Hk in L. injection L as L. exact L.
Qed.
Lemma total_blocks s f : built s -> total f (s_blocks s) = total (fun x => total (fun y => total (fun z => f (look s (x, y, z))) (zrange 0 (s_Z s))) (zrange 0 (s_Y s))) (zrange 0 (s_X s)).
Proof.
  intros B. rewrite (blocks_look s B) at 1. rewrite total_map. unfold grid. rewrite total_flat. apply total_ext. intros x _. rewrite total_flat. apply total_ext. intros y _. rewrite total_map. reflexivity.
Qed.
Lemma row_cells_sum s f y : built s -> (0 <= y < s_Y s)%Z -> total (fun b => if (b_iy b =? y)%Z then f b else 0) (s_blocks s) = total (fun x => total (fun z => f (look s (x, y, z))) (zrange 0 (s_Z s))) (zrange 0 (s_X s)).
Proof.
  intros B Hy. rewrite (total_blocks s _ B). apply total_ext. intros x Hx. apply zrange_in in Hx.
  rewrite (total_ext _ (fun y' => if (y' =? y)%Z then total (fun z => f (look s (x, y', z))) (zrange 0 (s_Z s)) else 0)).
  - apply (total_only (fun y' => total (fun z => f (look s (x, y', z))) (zrange 0 (s_Z s))) (fun y' => (y' =? y)%Z)); [apply zrange_nodup|apply zrange_in; exact Hy|intros; apply Z.eqb_eq].
  - intros y' Hy'. apply zrange_in in Hy'. rewrite (total_ext _ (fun z => if (y' =? y)%Z then f (look s (x, y', z)) else 0)).
    + destruct (y' =? y)%Z; [reflexivity|apply total_zero; reflexivity].
    + intros z Hz. apply zrange_in in Hz. destruct (look_nth s x y' z B Hx Hy' Hz) as [_ P]. unfold place in P. pose proof (f_equal (fun p => snd (fst p)) P) as Pe. cbn [fst snd] in Pe. rewrite Pe. reflexivity.
Qed.
Lemma sum_ok s ps : built s -> (forall x y z, In (x, y, z) ps -> (0 <= x < s_X s)%Z /\ (- s_Y s <= y < s_Y s)%Z /\ (0 <= z < s_Z s)%Z) -> forall acc,
  sum_at s ps acc = Ok (acc + total (fun p => b_H (look s (fst (fst p), snd (fst p) mod s_Y s, snd p)%Z)) ps).
Proof.
  intros B. induction ps as [|[[x y] z] ps IH]; intros H acc; [cbn; f_equal; unfold total; cbn; ring|]. cbn [sum_at]. destruct (H x y z (or_introl eq_refl)) as (H1 & H2 & H3). destruct (at_ok s x y z B H1 H2 H3) as [_ E]. rewrite E. cbn [rbind]. pose proof (look_wrap s x y z B H1 H2 H3) as L. unfold cell_spot in L. rewrite (proj2 (row_nth _ _ _) L). cbn [rbind].
  rewrite IH by (intros; apply H; right; assumption). f_equal. unfold total. cbn [fold_right fst snd]. ring.
Qed.
Lemma region_sum_iff s lo hi h : built s -> get_region_contributions_idx s lo hi = Ok h <->
  let e := Z.min (if (hi =? -1)%Z then s_Y s else hi) (s_Y s) in (s_X s = 0 \/ e <= lo \/ - s_Y s <= lo)%Z /\ h = region_sum s lo e.
Proof.
  intros B. unfold get_region_contributions_idx. cbv zeta. set (e := Z.min _ (s_Y s)). assert (He : (e <= s_Y s)%Z) by (unfold e; lia). change (flat_map _ (zrange lo e)) with (row_cells s lo e). pose proof B as (B1 & B2 & B3 & _).
  assert (G : (s_X s = 0 \/ e <= lo \/ - s_Y s <= lo)%Z -> sum_at s (row_cells s lo e) 0 = Ok (region_sum s lo e)).
  { intros C. rewrite (sum_ok s _ B) by (intros x y z H; apply row_cells_in in H; lia). f_equal. rewrite Rplus_0_l. unfold row_cells, region_sum. rewrite total_flat. apply total_ext. intros y Hy. apply zrange_in in Hy. rewrite total_flat. 
    destruct (Z.eq_dec (s_X s) 0) as [X0|X0].
    - rewrite X0. unfold zrange at 1. cbn [Z.sub Z.to_nat seq map]. change (total _ []) with 0. symmetry. unfold row_field. rewrite (blocks_look s B). unfold grid. rewrite X0. reflexivity.
    - unfold row_field. rewrite (row_cells_sum s b_H); [|exact B|apply Z.mod_pos_bound; lia]. apply total_ext. intros x _. rewrite total_map. reflexivity. }
  split.
  - intros H. destruct (Z.eq_dec (s_X s) 0) as [c|c]; [|destruct (Z_le_gt_dec e lo) as [d|d]; [|destruct (Z_le_gt_dec (- s_Y s) lo) as [f|f]]]; try (rewrite G in H by tauto; injection H as <-; split; [tauto|reflexivity]).
    exfalso. assert (E : exists ps, row_cells s lo e = (0%Z, lo, 0%Z) :: ps).
    { unfold row_cells. assert (ZR : forall a b, (a < b)%Z -> exists t, zrange a b = a :: t). { intros a b Hab. unfold zrange. replace (Z.to_nat (b - a)) with (S (Z.to_nat (b - a) - 1)) by lia. cbn [seq map]. eexists. f_equal. lia. }
      destruct (ZR lo e) as [t1 ->]; [lia|]. destruct (ZR 0%Z (s_X s)) as [t2 ->]; [lia|]. destruct (ZR 0%Z (s_Z s)) as [t3 ->]; [lia|]. cbn [flat_map map app]. eexists. reflexivity. }
    destruct E as [ps E]. rewrite E in H. cbn [sum_at] in H. destruct (at_fail s 0 lo 0) as [er Er]; [lia|]. rewrite Er in H. discriminate.
  - intros [C ->]. apply G, C.
Qed.
Lemma zrange_split a b c : (a <= b <= c)%Z -> zrange a c = zrange a b ++ zrange b c.
Proof.
  intros H. unfold zrange. replace (Z.to_nat (c - a)) with (Z.to_nat (b - a) + Z.to_nat (c - b))%nat by lia. rewrite seq_app, map_app. f_equal. cbn [Nat.add].
  assert (G : forall n m k0, map (fun k => (a + Z.of_nat k)%Z) (seq (m + k0) n) = map (fun k => (a + Z.of_nat m + Z.of_nat k)%Z) (seq k0 n)).
  { induction n as [|n IH]; intros m k0; [reflexivity|]. cbn [seq map]. f_equal; [lia|]. rewrite <- IH. f_equal. f_equal. lia. }
  pose proof (G (Z.to_nat (c - b)) (Z.to_nat (b - a)) 0%nat) as G0. rewrite Nat.add_0_r in G0. rewrite G0. replace (a + Z.of_nat (Z.to_nat (b - a)))%Z with b by lia. reflexivity.
Qed.
Lemma zrange_filter a b Y : (0 <= a)%Z -> (b <= Y)%Z -> zrange a b = filter (fun y => (a <=? y) && (y <? b))%Z (zrange 0 Y).
Proof.
  intros Ha Hb. destruct (Z_le_gt_dec a b) as [L|L].
  - rewrite (zrange_split 0 a Y), (zrange_split a b Y) by lia. rewrite !filter_app.
    assert (F : forall (p : Z -> bool) l, (forall y, In y l -> p y = false) -> filter p l = []) by (intros p l; induction l as [|y l IH]; intros H; [reflexivity|]; cbn; rewrite H by (left; reflexivity); apply IH; intros; apply H; right; assumption).
    assert (T : forall (p : Z -> bool) l, (forall y, In y l -> p y = true) -> filter p l = l) by (intros p l; induction l as [|y l IH]; intros H; [reflexivity|]; cbn; rewrite H by (left; reflexivity); f_equal; apply IH; intros; apply H; right; assumption).
    rewrite (F _ (zrange 0 a)), (T _ (zrange a b)), (F _ (zrange b Y)), app_nil_r; [reflexivity| | |]; intros y Hy; apply zrange_in in Hy.
    + apply andb_false_iff. right. apply Z.ltb_ge. lia.
    + apply andb_true_iff. rewrite Z.leb_le, Z.ltb_lt. lia.
    + apply andb_false_iff. left. apply Z.leb_gt. lia.
  - assert (E : zrange a b = []) by (unfold zrange; replace (Z.to_nat (b - a)) with 0%nat by lia; reflexivity). rewrite E. symmetry. assert (F : forall l, filter (fun y => (a <=? y) && (y <? b))%Z l = []). { induction l as [|y l IH]; [reflexivity|]. cbn. destruct (Z.leb_spec a y); [destruct (Z.ltb_spec y b); [lia|exact IH]|exact IH]. } apply F.
Qed.
Lemma filter_flat {A B} (p : B -> bool) (g : A -> list B) l : filter p (flat_map g l) = flat_map (fun a => filter p (g a)) l.
Proof. induction l; cbn; [reflexivity|]. rewrite filter_app, IHl. reflexivity. Qed.
Lemma flat_if {A B} (p : A -> bool) (g : A -> list B) l : flat_map (fun a => if p a then g a else []) l = flat_map g (filter p l).
Proof. induction l; cbn; [reflexivity|]. destruct (p a); cbn; rewrite IHl; reflexivity. Qed.
Lemma filter_mapp {A B} (p : B -> bool) (f : A -> B) l : filter p (map f l) = map f (filter (fun a => p (f a)) l).
Proof. induction l; cbn; [reflexivity|]. destruct (p (f a)); cbn; rewrite IHl; reflexivity. Qed.
Lemma pick_ok s ps : built s -> (forall x y z, In (x, y, z) ps -> (0 <= x < s_X s)%Z /\ (0 <= y < s_Y s)%Z /\ (0 <= z < s_Z s)%Z) -> pick s ps = Ok (map (look s) ps).
Proof.
  intros B. induction ps as [|[[x y] z] ps IH]; intros H; [reflexivity|]. cbn [pick map]. destruct (H x y z (or_introl eq_refl)) as (H1 & H2 & H3). assert (H2' : (- s_Y s <= y < s_Y s)%Z) by lia. destruct (at_ok s x y z B H1 H2' H3) as [_ E]. rewrite E. cbn [rbind]. destruct (look_nth s x y z B H1 H2 H3) as [L _]. unfold cell_spot in L. rewrite (proj2 (row_nth _ _ _) L). cbn [rbind].
  rewrite IH by (intros; apply H; right; assumption). reflexivity.
Qed.
Lemma slice_bounds n z : (0 <= n)%Z -> (0 <= slice_end n z <= n)%Z.
Proof. unfold slice_end. destruct (Z.ltb_spec z 0); lia. Qed.
Lemma rows_between_ok s lo hi : built s -> rows_between s lo hi = Ok (rows_of s lo hi).
Proof.
  intros B. unfold rows_between, rows_of. cbv zeta. pose proof B as (B1 & B2 & B3 & _). pose proof (slice_bounds (s_Y s) lo B2) as L1. pose proof (slice_bounds (s_Y s) hi B2) as L2. set (a := slice_end (s_Y s) lo) in *. set (b := slice_end (s_Y s) hi) in *. rewrite (pick_ok s _ B).
  - f_equal. rewrite (blocks_look s B), filter_mapp. f_equal. rewrite (filter_ext_in _ (fun p => (a <=? snd (fst p)) && (snd (fst p) <? b))%Z).
    + unfold grid. rewrite filter_flat. apply flat_map_ext. intros x. rewrite filter_flat. rewrite (zrange_filter a b (s_Y s)) by lia. rewrite <- flat_if. apply flat_map_ext. intros y. rewrite filter_mapp. cbn [fst snd]. destruct ((a <=? y) && (y <? b))%Z; induction (zrange 0 (s_Z s)) as [|z l IH]; cbn; try reflexivity; [f_equal; exact IH|exact IH].
    + intros [[x y] z] Hp. apply grid_in in Hp. destruct Hp as (H1 & H2 & H3). destruct (look_nth s x y z B H1 H2 H3) as [_ P]. unfold place in P. pose proof (f_equal (fun p => snd (fst p)) P) as Pe. cbn [fst snd] in Pe |- *. rewrite Pe. reflexivity.
  - intros x y z H. apply in_flat_map in H. destruct H as (x' & Hx & H). apply in_flat_map in H. destruct H as (y' & Hy & H). apply in_map_iff in H. destruct H as (z' & E & Hz). apply zrange_in in Hx, Hy, Hz. injection E as -> -> ->. lia.
Qed.
Lemma source_iff o targets dx dy dz : (forall b, In b (o :: targets) -> sized dx dy dz b) -> forall acc h, from_source o targets acc = Ok h <->
  (forall b, In b targets -> apart o b) /\ h = acc + total (fun b => if block_eq o b then 0 else ampere_field b o) targets.
Proof.
  induction targets as [|b l IH]; intros Sz acc h.
  - cbn. unfold total. cbn. split; [intros H; injection H as <-; split; [tauto|ring]|]. intros [_ ->]. f_equal. ring.
  - cbn [from_source]. assert (Sz' : forall c, In c (o :: l) -> sized dx dy dz c) by (intros c [Hc|Hc]; apply Sz; [left; exact Hc|right; right; exact Hc]). destruct (Sz o (or_introl eq_refl)) as (S1 & S2 & _). destruct (Sz b (or_intror (or_introl eq_refl))) as (S3 & S4 & _).
    change (total (fun b => if block_eq o b then 0 else ampere_field b o) (b :: l)) with ((if block_eq o b then 0 else ampere_field b o) + total (fun b => if block_eq o b then 0 else ampere_field b o) l).
    destruct (block_eq o b) eqn:E.
    + rewrite (IH Sz'). split; intros [A ->]; (split; [|ring]); [intros c [<-|Hc]; [intros N; congruence|apply A, Hc]|intros c Hc; apply A; right; exact Hc].
    + split.
      * intros H. apply rbind_iff in H. destruct H as [v [V H]]. apply ampere_iff in V; [|congruence|congruence]. destruct V as [D ->]. apply (IH Sz') in H. destruct H as [A ->]. split; [|ring]. intros c [<-|Hc]; [intros _; exact D|apply A, Hc].
      * intros [A ->]. assert (D : centre_distance b o <> 0) by (apply (A b (or_introl eq_refl)); exact E). rewrite (proj2 (ampere_iff b o (ampere_field b o) ltac:(congruence) ltac:(congruence)) (conj D eq_refl)). cbn [rbind]. apply (IH Sz'). split; [intros c Hc; apply A; right; exact Hc|ring].
Qed.
Lemma sources_iff targets dx dy dz sources : (forall b, In b sources \/ In b targets -> sized dx dy dz b) -> forall acc h, from_sources sources targets acc = Ok h <->
  (forall o b, In o sources -> In b targets -> apart o b) /\ h = acc + field_between sources targets.
Proof.
  induction sources as [|o l IH]; intros Sz acc h.
  - cbn. unfold field_between, total. cbn. split; [intros H; injection H as <-; split; [tauto|ring]|]. intros [_ ->]. f_equal. ring.
  - cbn [from_sources]. change (field_between (o :: l) targets) with (total (fun b => if block_eq o b then 0 else ampere_field b o) targets + field_between l targets).
    assert (S1 : forall b, In b l \/ In b targets -> sized dx dy dz b) by (intros b [Hb|Hb]; apply Sz; [left; right; exact Hb|right; exact Hb]). assert (S2 : forall b, In b (o :: targets) -> sized dx dy dz b) by (intros b [Hb|Hb]; apply Sz; [left; left; exact Hb|right; exact Hb]).
    split.
    + intros H. apply rbind_iff in H. destruct H as [v [V H]]. apply (source_iff _ _ _ _ _ S2) in V. destruct V as [A ->]. apply (IH S1) in H. destruct H as [A' ->]. split; [|ring]. intros p b [<-|Hp] Hb; [apply A, Hb|apply A'; assumption].
    + intros [A ->]. rewrite (proj2 (source_iff o targets _ _ _ S2 acc _) (conj (fun b Hb => A o b (or_introl eq_refl) Hb) eq_refl)). cbn [rbind]. apply (IH S1). split; [intros p b Hp Hb; apply A; [right; exact Hp|exact Hb]|ring].
Qed.
Lemma contribution_iff s smin smax tmin tmax h : built s -> compute_region_contribution_idx s smin smax tmin tmax = Ok h <->
  exists sm tm, smax = PInt sm /\ tmax = PInt tm /\ (forall o b, In o (rows_of s smin sm) -> In b (rows_of s tmin tm) -> apart o b) /\ h = field_between (rows_of s smin sm) (rows_of s tmin tm).
Proof.
  intros B. unfold compute_region_contribution_idx. destruct smax as [sm|x]; [|split; [discriminate|intros (a & b & E & _); discriminate]]. cbn [slice_index rbind]. rewrite (rows_between_ok s _ _ B). cbn [rbind].
  destruct tmax as [tm|x]; [|split; [discriminate|intros (a & b & _ & E & _); discriminate]]. cbn [slice_index rbind]. rewrite (rows_between_ok s _ _ B). cbn [rbind]. pose proof B as (_ & _ & _ & _ & _ & _ & F). rewrite Forall_forall in F.
  rewrite (sources_iff _ (s_dx s) (s_dy s) (s_dz s)) by (intros b [Hb|Hb]; apply filter_In in Hb; apply F, Hb). rewrite Rplus_0_l. split; [intros [A ->]; exists sm, tm; tauto|]. intros (a & b & E1 & E2 & A & ->). injection E1 as <-. injection E2 as <-. tauto.
Qed.

(** ** Consequences *)
Lemma in_total {A} (f : A -> R) l : length l = 0%nat -> total f l = 0. Proof. destruct l; [reflexivity|discriminate]. Qed.
Lemma rows_total s lo e f : built s -> (0 <= lo)%Z -> (e <= s_Y s)%Z -> total (fun y => total (fun b => if (b_iy b =? y)%Z then f b else 0) (s_blocks s)) (zrange lo e) = total (fun b => if ((lo <=? b_iy b) && (b_iy b <? e))%Z then f b else 0) (s_blocks s).
Proof.
  intros B L E. rewrite total_swap. apply total_ext. intros b Hb. destruct ((lo <=? b_iy b) && (b_iy b <? e))%Z eqn:C.
  - apply andb_true_iff in C. rewrite Z.leb_le, Z.ltb_lt in C. rewrite (total_ext _ (fun y => if (y =? b_iy b)%Z then f b else 0)) by (intros; rewrite Z.eqb_sym; reflexivity). apply (total_only (fun _ => f b) (fun y => (y =? b_iy b)%Z) (b_iy b)); [apply zrange_nodup|apply zrange_in; exact C|intros; apply Z.eqb_eq].
  - apply total_zero. intros y Hy. apply zrange_in in Hy. destruct (Z.eqb_spec (b_iy b) y); [|reflexivity]. apply andb_false_iff in C. rewrite Z.leb_gt, Z.ltb_ge in C. lia.
Qed.
Lemma region_sum_rows s lo e : built s -> (0 <= lo)%Z -> (e <= s_Y s)%Z -> region_sum s lo e = total (fun b => if ((lo <=? b_iy b) && (b_iy b <? e))%Z then b_H b else 0) (s_blocks s).
Proof. intros B L E. rewrite <- (rows_total s lo e b_H B L E). unfold region_sum, row_field. apply total_ext. intros y Hy. apply zrange_in in Hy. rewrite Z.mod_small by lia. reflexivity. Qed.
Lemma region_sum_split s a b c : (a <= b <= c)%Z -> region_sum s a c = region_sum s a b + region_sum s b c.
Proof. intros H. unfold region_sum. rewrite (zrange_split a b c H), total_app. reflexivity. Qed.
Lemma region_count s lo e (c : R) : built s -> (0 <= lo <= e)%Z -> (e <= s_Y s)%Z -> total (fun b => if in_rows (s_Y s) lo e (b_iy b) then c else 0) (s_blocks s) = c * (IZR (s_X s) * IZR (e - lo) * IZR (s_Z s)).
Proof.
  intros B L E. rewrite (total_ext _ (fun b => if ((lo <=? b_iy b) && (b_iy b <? e))%Z then c else 0)).
  - rewrite <- (rows_total s lo e (fun _ => c) B) by lia. pose proof B as (B1 & B2 & B3 & _). rewrite (total_ext _ (fun _ => INR (length (zrange 0 (s_X s))) * (INR (length (zrange 0 (s_Z s))) * c))).
    + rewrite total_const, !zrange_len, !INR_IZR_INZ, !Z2Nat.id by lia. rewrite !Z.sub_0_r. ring.
    + intros y Hy. apply zrange_in in Hy. rewrite (row_cells_sum s (fun _ => c) y B) by lia. rewrite (total_ext _ (fun _ => INR (length (zrange 0 (s_Z s))) * c)) by (intros; apply total_const). apply total_const.
  - intros b Hb. destruct (built_place s b B Hb) as (_ & P & _). unfold in_rows. assert (F : ((lo <=? b_iy b - s_Y s) && (b_iy b - s_Y s <? e))%Z = false) by (apply andb_false_iff; left; apply Z.leb_gt; lia). rewrite F, orb_false_r. reflexivity.
Qed.
Lemma region_current I lo hi s s' e : built s -> (0 <= lo <= e)%Z -> region_end s hi e -> set_region_I_idx I lo hi s = (s', Ok tt) ->
  total (fun b => if in_rows (s_Y s) lo e (b_iy b) then b_I b else 0) (s_blocks s') = I * (IZR (e - lo) * IZR (s_Z s)) / (Rmin (region_top s hi + 1) (IZR (s_Y s)) - IZR lo).
Proof.
  intros B L He H. assert (D : forall f, region_end s hi f -> f = e). { intros f Hf. unfold region_end in *. destruct Hf as [[? ->]|(? & Ef & _)], He as [[? ->]|(? & Ee & _)]; try lra; [reflexivity|]. apply eq_IZR. lra. }
  apply (set_region_iff _ _ _ _ _ B) in H. destruct H as (f & Hf & X0 & N & _ & ->). rewrite (D f Hf). cbn [s_blocks with_blocks]. rewrite total_map.
  rewrite (total_ext _ (fun b => if in_rows (s_Y s) lo e (b_iy b) then region_share s I lo hi else 0)) by (intros b _; destruct (in_rows (s_Y s) lo e (b_iy b)) eqn:Q; [cbn; rewrite Q; reflexivity|rewrite Q; reflexivity]).
  assert (LY : (e <= s_Y s)%Z). { destruct He as [[_ ->]|(T & E & _)]; [lia|]. apply le_IZR. lra. }
  rewrite (region_count s lo e _ B L LY). unfold region_share. assert (IZR (s_X s) <> 0) by (apply not_0_IZR; lia). field. split; [lra|assumption].
Qed.
Lemma contributions_agree s s' lo hi h : built s -> (forall b, In b (s_blocks s) -> b_H b = 0) -> compute_blocks s = (s', Ok tt) -> (0 <= lo <= s_Y s)%Z -> (0 <= hi <= s_Y s)%Z ->
  get_region_contributions_idx s' lo hi = Ok h <-> compute_region_contribution_idx s 0 (PInt (s_Y s)) lo (PInt hi) = Ok h.
Proof.
  intros B H0 C Ll Lh. pose proof C as C'. apply (compute_iff s s' B) in C. destruct C as [Fl ->]. set (s' := with_blocks _ s) in *.
  assert (B' : built s'). { apply (built_changed s (fun k b => add_H (field_at (s_blocks s) b) b)); [exact B|intros; repeat split; reflexivity|]. intros k. rewrite nth_error_map. reflexivity. }
  pose proof B as (B1 & B2 & B3 & B4 & B5 & _ & F). rewrite Forall_forall in F.
  rewrite (region_sum_iff s' lo hi h B'). cbv zeta. destruct (Z.eqb_spec hi (-1)); [lia|]. change (s_Y s') with (s_Y s). change (s_X s') with (s_X s). rewrite Z.min_l by lia. rewrite (region_sum_rows s' lo hi B') by (change (s_Y s') with (s_Y s); lia).
  assert (S1 : rows_of s 0 (s_Y s) = s_blocks s). { unfold rows_of. assert (T : forall l, (forall b, In b l -> In b (s_blocks s)) -> filter (fun b => ((slice_end (s_Y s) 0 <=? b_iy b) && (b_iy b <? slice_end (s_Y s) (s_Y s)))%Z) l = l). { induction l as [|b l IH]; intros H; [reflexivity|]. cbn [filter]. destruct (built_place s b B (H b (or_introl eq_refl))) as (_ & P & _). unfold slice_end at 1 2. destruct (Z.ltb_spec 0 0); [lia|]. destruct (Z.ltb_spec (s_Y s) 0); [lia|]. rewrite Z.min_id, Z.min_l by lia. destruct (Z.leb_spec 0 (b_iy b)); [|lia]. destruct (Z.ltb_spec (b_iy b) (s_Y s)); [|lia]. cbn [andb]. f_equal. apply IH. intros; apply H; right; assumption. } apply T. tauto. }
  assert (S2 : rows_of s lo hi = filter (fun b => ((lo <=? b_iy b) && (b_iy b <? hi))%Z) (s_blocks s)). { unfold rows_of, slice_end. destruct (Z.ltb_spec lo 0); [lia|]. destruct (Z.ltb_spec hi 0); [lia|]. rewrite !Z.min_l by lia. reflexivity. }
  assert (V : total (fun b => if ((lo <=? b_iy b) && (b_iy b <? hi))%Z then b_H b else 0) (s_blocks s') = field_between (rows_of s 0 (s_Y s)) (rows_of s lo hi)).
  { rewrite S1, S2. unfold field_between. rewrite total_swap, total_filter. unfold s'. cbn [s_blocks with_blocks]. rewrite total_map. apply total_ext. intros b Hb. cbn [b_iy add_H b_H]. destruct ((lo <=? b_iy b) && (b_iy b <? hi))%Z; [|reflexivity]. rewrite (H0 b Hb). unfold field_at. rewrite Rplus_0_l. apply total_ext. intros o _. rewrite eq_sym. reflexivity. }
  rewrite V, (contribution_iff s 0 (PInt (s_Y s)) lo (PInt hi) h B). split.
  - intros [_ ->]. exists (s_Y s), hi. split; [reflexivity|]. split; [reflexivity|]. split; [|reflexivity]. intros o b Ho Hb E D. rewrite S1 in Ho. apply filter_In in Hb. destruct Hb as [Hb _]. destruct (F b Hb) as (Z1 & Z2 & _).
    apply distance_zero in D; [|congruence|congruence]. destruct (built_place s o B Ho) as (P1 & P2 & P3). destruct (built_place s b B Hb) as (Q1 & Q2 & Q3). destruct D as [D1 D2]. assert (D3 : b_iz b = b_iz o) by lia. assert (X : block_eq o b = true) by (apply eq_iff; unfold place; congruence). congruence.
  - intros (a & c & E1 & E2 & _ & ->). injection E1 as <-. injection E2 as <-. split; [lia|reflexivity].
Qed.
Lemma ycoords_iff s lo hi z n : ycoords2indx s lo hi = Ok (z, n) <-> s_dy s <> 0 /\ IZR z - 1 < lo / s_dy s <= IZR z /\ (hi = -1 /\ n = s_maxY s \/ hi <> -1 /\ exists e, IZR e - 1 < hi / s_dy s <= IZR e /\ n = PInt e).
Proof.
  unfold ycoords2indx. split.
  - intros H. apply rbind_iff in H. destruct H as [q [Q H]]. apply div_iff in Q. destruct Q as [N ->]. split; [exact N|]. destruct (Req_EM_T hi (-1)) as [E|E].
    + injection H as <- <-. split; [apply ceil_iff; reflexivity|]. left. tauto.
    + rewrite (proj2 (div_iff _ _ _) (conj N eq_refl)) in H. cbn [rbind] in H. injection H as <- <-. split; [apply ceil_iff; reflexivity|]. right. split; [exact E|]. eexists. split; [apply ceil_iff; reflexivity|reflexivity].
  - intros (N & C & H). apply ceil_iff in C. rewrite (proj2 (div_iff _ _ _) (conj N eq_refl)). cbn [rbind]. destruct (Req_EM_T hi (-1)) as [E|E].
    + destruct H as [[_ ->]|[H _]]; [|contradiction]. rewrite C. reflexivity.
    + destruct H as [[H _]|(_ & e & Ce & ->)]; [contradiction|]. rewrite (proj2 (div_iff _ _ _) (conj N eq_refl)). cbn [rbind]. apply ceil_iff in Ce. rewrite C, Ce. reflexivity.
Qed.
Lemma set_region_I_iff I lo hi label s r : set_region_I I lo hi label s = r <-> (exists z n, ycoords2indx s lo hi = Ok (z, n) /\ r = set_region_I_idx I z n (noted lo label s)) \/ (exists e, ycoords2indx s lo hi = Err e /\ r = (noted lo label s, Err e)).
Proof.
  unfold set_region_I. unfold bind at 1. unfold modify at 1. unfold bind at 1. unfold get at 1. unfold bind at 1. unfold lift at 1. fold (noted lo label s). assert (E : ycoords2indx (noted lo label s) lo hi = ycoords2indx s lo hi) by reflexivity. rewrite E.
  destruct (ycoords2indx s lo hi) as [[z n]|e].
  - split; [intros <-; left; exists z, n; tauto|]. intros [(z' & n' & H & ->)|(e & H & _)]; [|discriminate]. injection H as <- <-. reflexivity.
  - split; [intros <-; right; exists e; tauto|]. intros [(z' & n' & H & _)|(e' & H & ->)]; [discriminate|]. injection H as <-. reflexivity.
Qed.
Lemma show_ok s x y b : built s -> In b (s_blocks s) -> b_ix b = x -> b_iy b = y -> (b_iz b + 1 = s_Z s)%Z -> show_field s x y = b_H b.
Proof.
  intros B Hb Ex Ey Ez. unfold show_field. pose proof B as (B1 & B2 & B3 & _). apply In_nth_error in Hb. destruct Hb as [k Hk]. pose proof (built_spot s k b B Hk) as Sp. destruct (built_place s b B (nth_error_In _ _ Hk)) as (P1 & P2 & P3).
  destruct (nth_error_split _ _ Hk) as (l1 & l2 & E & Lk). rewrite E, fold_left_app. cbn [fold_left]. rewrite Ex, Ey, !Z.eqb_refl. cbn [andb].
  assert (N : forall c, In c l2 -> ((b_ix c =? x) && (b_iy c =? y))%Z = false).
  { intros c Hc. apply andb_false_iff. destruct (Z.eqb_spec (b_ix c) x); [|left; reflexivity]. destruct (Z.eqb_spec (b_iy c) y); [|right; reflexivity]. exfalso. apply In_nth_error in Hc. destruct Hc as [j Hj].
    assert (Hc : nth_error (s_blocks s) (length l1 + S j) = Some c) by (rewrite E, nth_error_app2 by lia; replace (length l1 + S j - length l1)%nat with (S j) by lia; exact Hj). pose proof (built_spot s _ c B Hc) as Sc. destruct (built_place s c B (nth_error_In _ _ Hc)) as (Q1 & Q2 & Q3).
    assert (Lt : (k < length l1 + S j)%nat) by lia. rewrite Sp, Sc in Lt. unfold spot in Lt. replace (b_ix c) with (b_ix b) in * by lia. replace (b_iy c) with (b_iy b) in * by lia. nia. }
  clear E. revert N. generalize (b_H b). induction l2 as [|c l2 IH]; intros v N; [reflexivity|]. cbn [fold_left]. rewrite (N c) by (left; reflexivity). apply IH. intros; apply N; right; assumption.
Qed.
