(** The pulse procedure: reading one field, all fields, the collected output. *)
From Verif Require Export P_Procedures.
From Coq Require Import List Classical.
Open Scope R_scope.
Open Scope st_scope.

(** ** One run has one set of states *)
Lemma integer_part_det x m n : IntegerPart x m -> IntegerPart x n -> m = n.
Proof.
  intros [H|(H & ->)] [K|(K & ->)].
  - assert (A : (m < S n)%nat) by (apply INR_lt; rewrite S_INR; lra). assert (B : (n < S m)%nat) by (apply INR_lt; rewrite S_INR; lra). lia.
  - exfalso. pose proof (pos_INR m). lra.
  - exfalso. pose proof (pos_INR n). lra.
  - reflexivity.
Qed.
Lemma experiment_det T dt j1 j2 j2' N s N' s' : experiment T dt j1 j2 N s -> experiment T dt j1 j2' N' s' ->
  N' = N /\ j2' = j2 /\ forall k, (k <= N)%nat -> s' k = s k.
Proof.
  intros (E & C & r & u & S & Tr & _) (E' & C' & r' & u' & S' & Tr' & _).
  assert (EN : N' = N) by (apply (integer_part_det (T / dt)); [apply C'|apply C]). subst N'.
  split; [reflexivity|]. split; [congruence|].
  destruct S as (_ & S0 & M & Rr). destruct S' as (_ & S0' & M' & Rr').
  assert (U : u' = u).
  { destruct M as [M1 M2]. destruct M' as [M1' M2']. destruct (classic (exists l, In l (j_layers j1) /\ noisy l)) as [X|X];
    [rewrite (M1 X), (M1' X)|rewrite (M2 X), (M2' X)]; reflexivity. }
  assert (RR : r' = r) by congruence. rewrite RR in Tr'.
  induction k as [|k IH]; intros Hk; [congruence|]. specialize (IH ltac:(lia)). pose proof (Tr k ltac:(lia)) as A. pose proof (Tr' k ltac:(lia)) as B.
  rewrite IH in B. congruence.
Qed.

(** ** Lists *)
Lemma mapM_iff {A B} (f : A -> result B) xs ys : mapM f xs = Ok ys <-> Forall2 (fun x y => f x = Ok y) xs ys.
Proof.
  revert ys. induction xs as [|x xs IH]; intros ys; cbn [mapM].
  - split; [intros E; injection E as <-; constructor|intros F; inversion F; reflexivity].
  - split.
    + intros E. apply rbind_inv in E. destruct E as (y & E1 & E). apply rbind_inv in E. destruct E as (zs & E2 & E). injection E as <-. constructor; [exact E1|apply IH, E2].
    + intros F. inversion F as [|? y ? zs E1 F' X Y]; subst. rewrite E1. cbn [rbind]. apply IH in F'. rewrite F'. reflexivity.
Qed.
Lemma mapM_pure {A B} (f : A -> result B) (g : A -> B) xs : (forall x, In x xs -> f x = Ok (g x)) -> mapM f xs = Ok (map g xs).
Proof.
  induction xs as [|x xs IH]; intros H; [reflexivity|]. cbn [mapM map]. rewrite (H x (or_introl eq_refl)). cbn [rbind]. rewrite IH by (intros y Hy; apply H; right; exact Hy). reflexivity.
Qed.
Lemma mapM_fail {A B} (f : A -> result B) x xs : In x xs -> (forall y, f x <> Ok y) -> forall ys, mapM f xs <> Ok ys.
Proof.
  intros Hx HF ys E. apply mapM_iff in E. revert ys E. induction xs as [|a xs IH]; intros ys F; [destruct Hx|]. inversion F as [|? y ? zs E1 F']; subst.
  destruct Hx as [->|Hx]; [exact (HF y E1)|exact (IH Hx zs F')].
Qed.
Lemma mapM_mapi {A B} (f : A -> result B) (g : nat -> A -> B) xs : (forall p x, nth_error xs p = Some x -> f x = Ok (g p x)) -> mapM f xs = Ok (mapi g 0 xs).
Proof.
  revert g. induction xs as [|x xs IH]; intros g H; [reflexivity|]. cbn [mapM mapi]. rewrite (H 0%nat x eq_refl). cbn [rbind]. rewrite (IH (fun p => g (S p))) by (intros p y; exact (H (S p) y)).
  cbn [rbind]. rewrite mapi_shift. reflexivity.
Qed.
Lemma zip3_map xs : zip3 (map cx xs) (map cy xs) (map cz xs) = Ok xs.
Proof. induction xs as [|[x y z] xs IH]; [reflexivity|]. cbn [map zip3 cx cy cz]. rewrite IH. reflexivity. Qed.
Lemma select_seq (P : R -> bool) (t : nat -> R) {B} (g : nat -> B) n i :
  select (map P (map t (seq i n))) (map g (seq i n)) = map g (filter (fun k => P (t k)) (seq i n)).
Proof.
  revert i. induction n as [|n IH]; intros i; [reflexivity|]. unfold select in *. cbn [seq map combine filter fst]. destruct (P (t i)); cbn [map snd]; rewrite IH; reflexivity.
Qed.
Lemma tail_iff {B} n (xs ys : list B) : tail_samples n xs ys <-> ys = slice_last n xs.
Proof.
  unfold tail_samples, slice_last. split.
  - intros (hd & -> & P & Q). destruct (Z.ltb_spec 0 n) as [L|L].
    + specialize (P L). rewrite app_length in P |- *. assert (X : (length hd + length ys - Z.to_nat n = length hd)%nat) by lia.
      rewrite X, skipn_app, skipn_all, Nat.sub_diag. reflexivity.
    + specialize (Q L). rewrite app_length in Q. destruct (Nat.le_gt_cases (Z.to_nat (- n)) (length hd + length ys)) as [X|X].
      * rewrite Nat.min_l in Q by exact X. rewrite <- Q, skipn_app, skipn_all, Nat.sub_diag. reflexivity.
      * rewrite Nat.min_r in Q by lia. assert (ys = []) by (destruct ys; [reflexivity|cbn in Q; lia]). subst ys. symmetry. apply skipn_all2. rewrite app_nil_r. cbn in X. lia.
  - intros ->. destruct (Z.ltb_spec 0 n) as [L|L].
    + exists (firstn (length xs - Z.to_nat n) xs). rewrite firstn_skipn. split; [reflexivity|]. split; [intros _; rewrite skipn_length; lia|lia].
    + exists (firstn (Z.to_nat (- n)) xs). rewrite firstn_skipn. split; [reflexivity|]. split; [lia|intros _; rewrite firstn_length; lia].
Qed.
Lemma tails_iff {B} n (xss yss : list (list B)) : Forall2 (tail_samples n) xss yss <-> yss = map (slice_last n) xss.
Proof.
  revert yss. induction xss as [|xs xss IH]; intros yss; cbn [map].
  - split; [intros F; inversion F; reflexivity|intros ->; constructor].
  - split; [intros F; inversion F as [|? y ? zs E1 F']; subst; apply tail_iff in E1; apply IH in F'; congruence|].
    intros ->. constructor; [apply tail_iff; reflexivity|apply IH; reflexivity].
Qed.

(** ** Spectrum *)
Lemma combine_map_seq {A B} (f : nat -> A) (g : nat -> B) ks : combine (map f ks) (map g ks) = map (fun k => (f k, g k)) ks.
Proof. induction ks as [|k ks IH]; [reflexivity|]. cbn. rewrite IH. reflexivity. Qed.
Lemma filter_map {A B} (f : A -> B) (P : B -> bool) xs : filter P (map f xs) = map f (filter (fun x => P (f x)) xs).
Proof. induction xs as [|x xs IH]; [reflexivity|]. cbn. destruct (P (f x)); cbn; rewrite IH; reflexivity. Qed.
Lemma filter_ext_in' {A} (P Q : A -> bool) xs : (forall x, In x xs -> P x = Q x) -> filter P xs = filter Q xs.
Proof. apply filter_ext_in. Qed.
Lemma firstn_at {A} (xs : list A) : forall n i, (i < n)%nat -> nth_error (firstn n xs) i = nth_error xs i.
Proof. induction xs as [|x xs IH]; intros [|n] i H; [lia|reflexivity|lia|]. destruct i as [|i]; [reflexivity|]. cbn. apply IH. lia. Qed.
Lemma half_transform xs : firstn (length xs / 2) (map cabs (transform false (map (fun x => (x, 0)) xs))) = map (magnitude xs) (seq 0 (length xs / 2)).
Proof.
  assert (L : length (transform false (map (fun x => (x, 0)) xs)) = length xs) by (unfold transform; rewrite map_length, seq_length, map_length; reflexivity).
  assert (D : (length xs / 2 <= length xs)%nat) by (apply Nat.div_le_upper_bound; lia).
  apply list_ext. intros i. destruct (Nat.lt_ge_cases i (length xs / 2)) as [H|H].
  - rewrite nth_error_map_seq by exact H. rewrite firstn_at by exact H.
    rewrite nth_error_map, P_Compute.transform_dft by lia. reflexivity.
  - transitivity (@None R); [|symmetry]; apply nth_error_None; [rewrite firstn_length; lia|rewrite map_length, seq_length; exact H].
Qed.
Lemma spectrum_iff xs dt fmax yf freqs : compute_spectrum_strip xs dt fmax = Ok (yf, freqs) <-> cut_spectrum xs dt fmax yf freqs.
Proof.
  unfold compute_spectrum_strip, cut_spectrum. destruct xs as [|x xs]; [split; [discriminate|intros (H & _); contradiction]|].
  cbv zeta. set (ys := x :: xs). assert (NZ : INR (length ys) <> 0) by (apply not_0_INR; discriminate).
  unfold py_div. destruct (Req_EM_T (INR (length ys) * dt) 0) as [E|E].
  - cbn [rbind]. split; [discriminate|]. intros (_ & D & _). exfalso. apply Rmult_integral in E. destruct E; contradiction.
  - assert (D : dt <> 0) by (intros ->; apply E; ring). cbn [rbind]. rewrite half_transform.
    rewrite combine_map_seq, filter_map, !map_map. cbn [fst snd].
    assert (B : filter (fun k => if Rle_dec (INR k * (1 / (INR (length ys) * dt))) fmax then true else false) (seq 0 (length ys / 2)) = bins (length ys) dt fmax).
    { unfold bins. apply filter_ext. intros k. unfold bin_frequency. replace (INR k * (1 / (INR (length ys) * dt))) with (INR k / (INR (length ys) * dt)) by (field; split; assumption). reflexivity. }
    rewrite B. assert (F : map (fun k => INR k * (1 / (INR (length ys) * dt))) (bins (length ys) dt fmax) = map (bin_frequency (length ys) dt) (bins (length ys) dt fmax)).
    { apply map_ext. intros k. unfold bin_frequency. field. split; assumption. }
    rewrite F. split.
    + intros X. injection X as <- <-. split; [discriminate|]. split; [exact D|]. split; reflexivity.
    + intros (_ & _ & -> & ->). reflexivity.
Qed.

(** ** One field *)
Definition kin (ls ls2 : list layer) : Prop :=
  length ls2 = length ls /\ forall p l l2, nth_error ls p = Some l -> nth_error ls2 p = Some l2 -> l_id l2 = l_id l /\ l_thickness l2 = l_thickness l /\ l_Ms l2 = l_Ms l.
(** What the log of the run holds. *)
Definition logged_run (dt : R) (ls : list layer) (N : nat) (s : nat -> junction) (g : log_t) : Prop :=
  (N = 0%nat -> g = []) /\
  ((0 < N)%nat -> log_get "time" g = Some (map (fun k => INR k * dt) (seq 0 N)) /\
     forall p l, nth_error ls p = Some l ->
        log_get (colname (l_id l) "mx") g = Some (map cx (samples s N p)) /\
        log_get (colname (l_id l) "my") g = Some (map cy (samples s N p)) /\
        log_get (colname (l_id l) "mz") g = Some (map cz (samples s N p))).
Lemma kin_nth ls ls2 p l2 : kin ls ls2 -> nth_error ls2 p = Some l2 -> exists l, nth_error ls p = Some l /\ l_id l2 = l_id l /\ l_thickness l2 = l_thickness l /\ l_Ms l2 = l_Ms l.
Proof.
  intros [L K] H. assert (X : (p < length ls)%nat) by (rewrite <- L; apply nth_error_Some; congruence).
  destruct (nth_error ls p) as [l|] eqn:E; [|apply nth_error_None in E; lia]. exists l. split; [reflexivity|exact (K p l l2 E H)].
Qed.
Lemma mapi_kin {B} (f : nat -> layer -> B) ls ls2 : kin ls ls2 -> (forall p l l2, l_id l2 = l_id l -> l_thickness l2 = l_thickness l -> l_Ms l2 = l_Ms l -> f p l2 = f p l) -> mapi f 0 ls2 = mapi f 0 ls.
Proof.
  intros K F. apply list_ext. intros p. rewrite !mapi_nth. cbn [Nat.add]. destruct (nth_error ls2 p) as [l2|] eqn:E2.
  - destruct (kin_nth _ _ _ _ K E2) as (l & E & A & B' & C). rewrite E. cbn. rewrite (F p l l2) by assumption. reflexivity.
  - destruct (nth_error ls p) as [l|] eqn:E; [|reflexivity]. exfalso. apply nth_error_None in E2. destruct K as [L _]. assert (X : (p < length ls)%nat) by (apply nth_error_Some; congruence). lia.
Qed.
Lemma traj_read dt ls N s g p l : logged_run dt ls N s g -> (0 < N)%nat -> nth_error ls p = Some l -> layer_traj g (l_id l) = Ok (samples s N p).
Proof.
  intros [_ LR] P Hl. destruct (LR P) as [_ C]. destruct (C p l Hl) as (X & Y & Z). unfold layer_traj, dict_at.
  change (l_id l ++ "_mx")%string with (colname (l_id l) "mx"). change (l_id l ++ "_my")%string with (colname (l_id l) "my"). change (l_id l ++ "_mz")%string with (colname (l_id l) "mz").
  rewrite X, Y, Z. cbn [rbind]. apply zip3_map.
Qed.
Lemma component_read dt ls N s g p l a : logged_run dt ls N s g -> (0 < N)%nat -> nth_error ls p = Some l ->
  dict_at (l_id l ++ "_m" ++ component a)%string g = Ok (map (fun k => along_part a (sample_of s p k)) (seq 0 N)).
Proof.
  intros [_ LR] P Hl. destruct (LR P) as [_ C]. destruct (C p l Hl) as (X & Y & Z). unfold samples in X, Y, Z. rewrite map_map in X, Y, Z. unfold dict_at.
  destruct a; cbn [component along_part];
  [change (l_id l ++ "_m" ++ "x")%string with (colname (l_id l) "mx"); rewrite X; reflexivity
  |change (l_id l ++ "_m" ++ "y")%string with (colname (l_id l) "my"); rewrite Y; reflexivity
  |change (l_id l ++ "_m" ++ "z")%string with (colname (l_id l) "mz"); rewrite Z; reflexivity
  |change (l_id l ++ "_m" ++ "x")%string with (colname (l_id l) "mx"); rewrite X; reflexivity
  |change (l_id l ++ "_m" ++ "x")%string with (colname (l_id l) "mx"); rewrite X; reflexivity].
Qed.
Lemma scaled_ok ls l x : total_moment ls <> 0 -> scaled l (total_moment ls) x = Ok (weight ls l * x).
Proof. intros H. unfold scaled, fdiv. destruct (Req_EM_T (total_moment ls) 0); [contradiction|]. f_equal. unfold weight, moment. field. exact H. Qed.
Lemma scaled_vec_ok ls l v : total_moment ls <> 0 -> scaled_vec l (total_moment ls) v = Ok (Scal (weight ls l) v).
Proof. intros H. unfold scaled_vec. rewrite !scaled_ok by exact H. cbn [rbind]. destruct v; reflexivity. Qed.
Lemma samples_length s N p : length (samples s N p) = N.
Proof. unfold samples. rewrite map_length, seq_length. reflexivity. Qed.
Lemma last_sample s N p w : (0 < N)%nat -> last_of (map (Scal w) (samples s N p)) = Scal w (sample_of s p (N - 1)).
Proof.
  intros P. unfold last_of. rewrite map_length, samples_length. apply nth_error_nth. unfold samples. rewrite nth_error_map, nth_error_map_seq by lia. reflexivity.
Qed.
Lemma mapi_map {A B C} (g : B -> C) (f : nat -> A -> B) xs : forall i, map g (mapi f i xs) = mapi (fun p x => g (f p x)) i xs.
Proof. induction xs as [|x xs IH]; intros i; [reflexivity|]. cbn. rewrite IH. reflexivity. Qed.
Lemma vec_sum_Sum vs : vec_sum vs = Sum vs.
Proof. induction vs as [|v vs IH]; [reflexivity|]. cbn [vec_sum Sum fold_right]. rewrite vadd_Plus. f_equal. exact IH. Qed.
Lemma stacked_mapi {A} (f : nat -> layer -> list A) n ls : ls <> [] -> (forall p l, length (f p l) = n) -> stacked (mapi f 0 ls) = Ok (mapi f 0 ls).
Proof.
  intros NE H. destruct ls as [|l ls]; [contradiction|]. cbn [mapi stacked]. rewrite (proj2 (forallb_forall _ _)); [reflexivity|].
  intros q Hq. apply Nat.eqb_eq. rewrite H. apply In_nth_error in Hq. destruct Hq as [p Hp]. rewrite mapi_nth in Hp. destruct (nth_error ls p); [|discriminate]. cbn in Hp. injection Hp as <-. apply H.
Qed.
Lemma columns_mapi (f : nat -> layer -> nat -> R) ks ls : ls <> [] ->
  map sum_list (columns 0 (length (hd [] (mapi (fun p l => map (f p l) ks) 0 ls))) (mapi (fun p l => map (f p l) ks) 0 ls)) =
  map (fun k => fold_right Rplus 0 (mapi (fun p l => f p l k) 0 ls)) ks.
Proof.
  intros NE. assert (L : length (hd [] (mapi (fun p l => map (f p l) ks) 0 ls)) = length ks) by (destruct ls; [contradiction|]; cbn; apply map_length).
  rewrite L. unfold columns. rewrite map_map. apply list_ext. intros i. destruct (Nat.lt_ge_cases i (length ks)) as [H|H].
  - rewrite nth_error_map_seq by exact H. destruct (nth_error ks i) as [k|] eqn:E; [|apply nth_error_None in E; lia]. rewrite nth_error_map, E. cbn [option_map]. f_equal.
    rewrite mapi_map. unfold sum_list. f_equal. apply mapi_ext. intros p l _. apply nth_error_nth. rewrite nth_error_map, E. reflexivity.
  - transitivity (@None R); [|symmetry]; apply nth_error_None; rewrite map_length; [rewrite seq_length; exact H|exact H].
Qed.
Section Read.
Context {A : Type} (a : pimm_args A).
Lemma read_iff dt ls N s j2 H row : pa_int_step a = dt -> ls <> [] -> kin ls (j_layers j2) -> logged_run dt ls N s (j_log j2) ->
  pimm_read a (total_moment ls) H j2 = Ok row <-> pimm_result a ls H N s row.
Proof.
  intros Edt NE K LR. unfold pimm_read. cbv zeta.
  destruct (Nat.eq_dec N 0) as [N0|N0].
  { destruct LR as [LR _]. rewrite (LR N0). cbn [dict_at log_get rbind]. split; [discriminate|]. intros (P & _). lia. }
  assert (P : (0 < N)%nat) by lia. pose proof LR as [_ LR']. destruct (LR' P) as [TM _]. unfold dict_at at 1. rewrite TM. cbn [rbind].
  set (f1 := fun l => ms <-- layer_traj (j_log j2) (l_id l) ;; mapM (scaled_vec l (total_moment ls)) ms).
  destruct (Req_EM_T (total_moment ls) 0) as [Z|Z].
  { split; [|intros (_ & X & _); contradiction]. intros E. exfalso. apply rbind_inv in E. destruct E as (rows & E & _).
    destruct ls as [|l0 ls]; [contradiction|]. destruct (j_layers j2) as [|l2 ls2] eqn:EL; [destruct K as [L _]; discriminate|].
    revert E. apply (mapM_fail f1 l2); [left; reflexivity|]. intros y E. unfold f1 in E.
    destruct K as [L K]. destruct (K 0%nat l0 l2 eq_refl eq_refl) as (I & _). rewrite I, (traj_read dt (l0 :: ls) N s _ 0 l0 LR P eq_refl) in E. cbn [rbind] in E.
    revert E. apply (mapM_fail _ (sample_of s 0 0)); [unfold samples; apply in_map; apply in_seq; lia|]. intros v E.
    unfold scaled_vec, scaled, fdiv in E. destruct (Req_EM_T (total_moment (l0 :: ls)) 0); [discriminate|contradiction]. }
  assert (ROWS : mapM f1 (j_layers j2) = Ok (mapi (fun p l => map (Scal (weight ls l)) (samples s N p)) 0 ls)).
  { rewrite (mapM_mapi f1 (fun p l => map (Scal (weight ls l)) (samples s N p))).
    - f_equal. apply (mapi_kin _ ls); [exact K|]. intros p l l2 _ T M. unfold weight, moment. rewrite T, M. reflexivity.
    - intros p l2 Hp. destruct (kin_nth _ _ _ _ K Hp) as (l & Hl & I & _). unfold f1. rewrite I, (traj_read dt ls N s _ p l LR P Hl). cbn [rbind].
      apply mapM_pure. intros v _. apply scaled_vec_ok, Z. }
  rewrite ROWS. cbn [rbind]. rewrite (stacked_mapi _ N) by (first [exact NE | intros; rewrite map_length; apply samples_length]). cbn [rbind].
  set (mt := mapi (fun p l => map (Scal (weight ls l)) (samples s N p)) 0 ls). set (m := map (slice_last (pa_last_n a)) mt).
  assert (AVG : vec_sum (map last_of mt) = Sum (mapi (fun p l => Scal (weight ls l) (sample_of s p (N - 1))) 0 ls)).
  { rewrite vec_sum_Sum. unfold mt. rewrite mapi_map. f_equal. apply mapi_ext. intros p l _. apply last_sample, P. }
  rewrite AVG.
  set (f2 := fun l => c <-- dict_at (l_id l ++ "_m" ++ component (pa_direction a)) (j_log j2) ;;
       mapM (scaled l (total_moment ls)) (select (map (fun t => if Rle_dec (pa_wait a) t then true else false) (map (fun k => INR k * dt) (seq 0 N))) c)).
  assert (MIX : mapM f2 (j_layers j2) = Ok (mapi (fun p l => map (fun k => weight ls l * along_part (pa_direction a) (sample_of s p k)) (late (pa_wait a) dt N)) 0 ls)).
  { rewrite (mapM_mapi f2 (fun p l => map (fun k => weight ls l * along_part (pa_direction a) (sample_of s p k)) (late (pa_wait a) dt N))).
    - f_equal. apply (mapi_kin _ ls); [exact K|]. intros p l l2 _ T M. unfold weight, moment. rewrite T, M. reflexivity.
    - intros p l2 Hp. destruct (kin_nth _ _ _ _ K Hp) as (l & Hl & I & T & M). unfold f2. rewrite I, (component_read dt ls N s _ p l _ LR P Hl). cbn [rbind].
      rewrite (select_seq (fun t => if Rle_dec (pa_wait a) t then true else false) (fun k => INR k * dt)). fold (late (pa_wait a) dt N).
      rewrite (mapM_pure _ (fun x => weight ls l2 * x)) by (intros x _; apply scaled_ok, Z). rewrite map_map. reflexivity. }
  set (mixed := mapi (fun p l => map (fun k => weight ls l * along_part (pa_direction a) (sample_of s p k)) (late (pa_wait a) dt N)) 0 ls) in *.
  assert (SUM : map sum_list (columns 0 (length (hd [] mixed)) mixed) = whole_signal ls (pa_direction a) (pa_wait a) dt N s).
  { unfold mixed. rewrite (columns_mapi (fun p l k => weight ls l * along_part (pa_direction a) (sample_of s p k))) by exact NE. reflexivity. }
  assert (TAIL : forall ms, Forall2 (tail_samples (pa_last_n a)) mt ms <-> ms = m) by (intros ms; apply tails_iff).
  unfold pimm_result. fold mt. rewrite !Edt.
  destruct (pa_fn a (strips_of (pa_params a)) (length (hd [] m)) m) as [[Rx Ry]|e] eqn:EF.
  2: { cbn [rbind]. split; [discriminate|]. intros (_ & _ & _ & (ms & F & X) & _). apply TAIL in F. subst ms. congruence. }
  cbn [rbind fst snd].
  assert (FN : forall rx ry, (exists ms, Forall2 (tail_samples (pa_last_n a)) mt ms /\ pa_fn a (strips_of (pa_params a)) (length (hd [] ms)) ms = Ok (rx, ry)) <-> rx = Rx /\ ry = Ry).
  { intros rx ry. split.
    - intros (ms & F & X). apply TAIL in F. subst ms. rewrite EF in X. injection X as <- <-. split; reflexivity.
    - intros [-> ->]. exists m. split; [apply TAIL; reflexivity|exact EF]. }
  rewrite FN. destruct (pa_static a) eqn:ES.
  - cbn [rbind negb]. rewrite Bool.andb_false_r. cbn [rbind]. split.
    + intros E. injection E as <-. cbn. repeat split; try exact P; try exact Z; try (intros; discriminate). intros [_ X]. discriminate.
    + destruct row as [rH rx ry ma sp fu]. cbn. intros (_ & _ & -> & [-> ->] & -> & X & _ & _ & Y). rewrite (X eq_refl), (Y (or_intror eq_refl)). reflexivity.
  - rewrite MIX. cbn [rbind]. rewrite SUM.
    destruct (compute_spectrum_strip (whole_signal ls (pa_direction a) (pa_wait a) dt N s) dt (pa_max_frequency a)) as [[yf fr]|e] eqn:EC.
    2: { cbn [rbind]. split; [discriminate|]. intros (_ & _ & _ & _ & _ & _ & X & _). destruct (X eq_refl) as (yf & fr & _ & Y). apply spectrum_iff in Y. congruence. }
    cbn [rbind]. assert (CS : forall y f, cut_spectrum (whole_signal ls (pa_direction a) (pa_wait a) dt N s) dt (pa_max_frequency a) y f <-> y = yf /\ f = fr).
    { intros y f. rewrite <- spectrum_iff, EC. split; [intros X; injection X as <- <-; split; reflexivity|intros [-> ->]; reflexivity]. }
    set (f3 := fun x : list R => s0 <-- compute_spectrum_strip x dt (pa_max_frequency a) ;; Ok (fst s0)).
    assert (YS : forall ys, mapM f3 mixed = Ok ys <-> length ys = length ls /\ forall p l y, nth_error ls p = Some l -> nth_error ys p = Some y ->
       exists f, cut_spectrum (layer_signal ls (pa_direction a) (pa_wait a) dt N s p l) dt (pa_max_frequency a) y f).
    { intros ys. rewrite mapM_iff, Forall2_nth. unfold mixed at 1. rewrite mapi_length.
      assert (F3 : forall x y, f3 x = Ok y <-> exists f, cut_spectrum x dt (pa_max_frequency a) y f).
      { intros x y. unfold f3. destruct (compute_spectrum_strip x dt (pa_max_frequency a)) as [[y0 f0]|e] eqn:E0; cbn [rbind fst]; split.
        - intros X. injection X as <-. exists f0. apply spectrum_iff, E0.
        - intros (f & X). apply spectrum_iff in X. rewrite E0 in X. injection X as -> ->. reflexivity.
        - discriminate.
        - intros (f & X). apply spectrum_iff in X. congruence. }
      split; intros [L HY]; split; try exact L.
      - intros p l y Hl Hy. apply F3. apply (HY p); [|exact Hy]. unfold mixed. rewrite mapi_nth, Hl. reflexivity.
      - intros p x y Hx Hy. unfold mixed in Hx. rewrite mapi_nth in Hx. destruct (nth_error ls p) as [l|] eqn:Hl; [|discriminate]. injection Hx as <-. apply F3. exact (HY p l y Hl Hy). }
    cbn [negb]. rewrite Bool.andb_true_r. destruct (pa_full a) eqn:EFU.
    + split.
      * intros E. apply rbind_inv in E. destruct E as (full & E & E'). apply rbind_inv in E. destruct E as (ys & E & E''). injection E'' as <-. injection E' as <-. cbn.
        split; [exact P|]. split; [exact Z|]. split; [reflexivity|]. split; [split; reflexivity|]. split; [reflexivity|]. split; [discriminate|].
        split; [intros _; exists yf, fr; split; [reflexivity|apply CS; split; reflexivity]|]. split; [intros _; exists ys; split; [reflexivity|apply YS, E]|]. intros [X|X]; discriminate.
      * destruct row as [rH rx ry ma sp fu]. cbn. intros (_ & _ & -> & [-> ->] & -> & _ & X & Y & _).
        destruct (X eq_refl) as (y & f & -> & C). apply CS in C. destruct C as [-> ->]. destruct (Y (conj eq_refl eq_refl)) as (ys & -> & HY). apply YS in HY. rewrite HY. reflexivity.
    + cbn [rbind]. split.
      * intros E. injection E as <-. cbn. split; [exact P|]. split; [exact Z|]. split; [reflexivity|]. split; [split; reflexivity|]. split; [reflexivity|]. split; [discriminate|].
        split; [intros _; exists yf, fr; split; [reflexivity|apply CS; split; reflexivity]|]. split; [intros [X _]; discriminate|]. reflexivity.
      * destruct row as [rH rx ry ma sp fu]. cbn. intros (_ & _ & -> & [-> ->] & -> & _ & X & _ & Y).
        destruct (X eq_refl) as (y & f & -> & C). apply CS in C. destruct C as [-> ->]. rewrite (Y (or_introl eq_refl)). reflexivity.
Qed.
End Read.

(** ** The loop over the fields *)
Lemma prepared_for_shape rnd H oe d pos j j1 : prepared_for rnd H oe d pos j j1 -> shape j j1 /\ j_log j1 = [] /\ j_logLength j1 = 0%nat /\ kin (j_layers j) (j_layers j1).
Proof.
  intros (_ & ls & -> & L & F). assert (K : kin (j_layers j) ls).
  { split; [exact L|]. intros p l l1 A B. destruct (F p l l1 A B) as (m & _ & ->). repeat split. }
  split; [|split; [reflexivity|split; [reflexivity|exact K]]].
  eapply shape_trans; [|apply shape_log]. apply shape_layers. unfold ids. apply list_ext. intros p. rewrite !nth_error_map.
  destruct (nth_error ls p) as [l1|] eqn:E1.
  - destruct (kin_nth _ _ _ _ K E1) as (l & E & I & _). rewrite E. cbn. rewrite I. reflexivity.
  - destruct (nth_error (j_layers j) p) as [l|] eqn:E; [|reflexivity]. exfalso. apply nth_error_None in E1. assert (p < length (j_layers j))%nat by (apply nth_error_Some; congruence). lia.
Qed.
Lemma kin_trans a b c : kin a b -> kin b c -> kin a c.
Proof.
  intros [L K] [L' K']. split; [congruence|]. intros p l l2 Ha Hc. destruct (kin_nth b c p l2 (conj L' K') Hc) as (l1 & Hb & A & B & C).
  destruct (K p l l1 Ha Hb) as (A' & B' & C'). repeat split; congruence.
Qed.
Lemma kin_static a b : stepwise (fun _ l l' => static l l') a b -> kin (j_layers a) (j_layers b).
Proof. intros (_ & L & F). split; [exact L|]. intros p l l2 A B. destruct (F p l l2 A B) as (m & c & rp & bf & ->). repeat split. Qed.
Lemma kin_prepared ls : kin ls (map prepared ls).
Proof.
  split; [apply map_length|]. intros p l l2 A B. rewrite nth_error_map, A in B. injection B as <-. unfold prepared. destruct (Req_EM_T _ _); repeat split.
Qed.
Lemma kin_moment ls ls2 : kin ls ls2 -> total_moment ls2 = total_moment ls.
Proof.
  revert ls2. induction ls as [|l ls IH]; intros [|l2 ls2] [L K]; try discriminate; [reflexivity|]. cbn [total_moment fold_right].
  destruct (K 0%nat l l2 eq_refl eq_refl) as (_ & T & M). unfold moment. rewrite T, M. f_equal. apply IH. split; [injection L as L; exact L|]. intros p. exact (K (S p)).
Qed.
Lemma kin_ids j j2 : kin (j_layers j) (j_layers j2) -> ids j2 = ids j /\ layerNo j2 = layerNo j.
Proof.
  intros K. split; [|apply K]. unfold ids. apply list_ext. intros p. rewrite !nth_error_map. destruct (nth_error (j_layers j2) p) as [l2|] eqn:E2.
  - destruct (kin_nth _ _ _ _ K E2) as (l & E & I & _). rewrite E. cbn. rewrite I. reflexivity.
  - destruct (nth_error (j_layers j) p) as [l|] eqn:E; [|reflexivity]. exfalso. apply nth_error_None in E2. destruct K as [L _]. assert (p < length (j_layers j))%nat by (apply nth_error_Some; congruence). lia.
Qed.
(** One measurement: everything the log then holds. *)
Lemma measured rnd H oe d pos T dt j j1 j2 : named j -> prepared_for rnd H oe d pos j j1 -> runSimulation T dt dt false RK4 j1 = (j2, Ok tt) ->
  exists N s, experiment T dt j1 j2 N s /\ kin (j_layers j) (j_layers j2) /\ named j2 /\ logged_run dt (j_layers j) N s (j_log j2).
Proof.
  intros NM PF ER. destruct (prepared_for_shape _ _ _ _ _ _ _ PF) as (SH & L0 & L1 & K1).
  destruct (fresh_log T dt j1 j2 (named_shape _ _ SH NM) L0 L1 ER) as (N & s & EX & SH2 & ST & Z & COL & _).
  exists N, s. split; [exact EX|]. assert (K2 : kin (j_layers j) (j_layers j2)).
  { destruct EX as (_ & _ & r & u & (_ & S0 & _) & _ & ->). eapply kin_trans; [exact K1|]. eapply kin_trans; [|apply kin_static, ST]. rewrite S0. apply kin_prepared. }
  split; [exact K2|]. split; [eapply named_shape; [exact SH2|]; eapply named_shape; eassumption|]. split; [exact Z|].
  intros P. destruct (COL P) as [TM C]. split; [exact TM|]. intros p l Hl.
  destruct (nth_error (j_layers j1) p) as [l1|] eqn:E1.
  - destruct K1 as [_ K1]. destruct (K1 p l l1 Hl E1) as (I & _). rewrite <- I. apply C, E1.
  - exfalso. apply nth_error_None in E1. destruct K1 as [L _]. assert (p < length (j_layers j))%nat by (apply nth_error_Some; congruence). lia.
Qed.
Lemma samples_eq N s s' p : (forall k, (k <= N)%nat -> s' k = s k) -> samples s' N p = samples s N p.
Proof. intros E. unfold samples. apply map_ext_in. intros k Hk. apply in_seq in Hk. unfold sample_of. rewrite E by lia. reflexivity. Qed.
Lemma logged_eq dt ls N s s' g : (forall k, (k <= N)%nat -> s' k = s k) -> logged_run dt ls N s g -> logged_run dt ls N s' g.
Proof. intros E [A B]. split; [exact A|]. intros P. destruct (B P) as [T C]. split; [exact T|]. intros p l Hl. rewrite (samples_eq _ _ _ _ E). apply C, Hl. Qed.

Section Loop.
Context {A : Type} (rnd : nat -> R) (a : pimm_args A) (oe : adriver).
Lemma loop_iff Hs : forall j pos final rows, named j -> ~ In "all"%string (ids j) ->
  pimm_loop rnd a oe (ids j) (total_moment (j_layers j)) Hs (j, pos) = (final, Ok rows) <-> pimm_fields rnd a oe Hs (j, pos) final rows.
Proof.
  induction Hs as [|H Hs IH]; intros j pos final rows NM NA.
  - cbn. unfold ret. split; [intros E; injection E as <- <-; constructor|intros E; inversion E; subst; reflexivity].
  - cbn [pimm_loop]. split.
    + intros E. unfold bind at 1 in E. destruct (measure _ _ _ _ _ _ _ _) as [[j2 pos2] [[]|e]] eqn:EM; [|discriminate].
      apply measure_iff in EM; [|apply NM|exact NA]. destruct EM as (j1 & PF & ER & ->).
      unfold bind at 1, get in E. unfold bind at 1, lift in E. cbn [fst] in E.
      destruct (measured _ _ _ _ _ _ _ _ _ _ NM PF ER) as (N & s & EX & K & NM2 & LR).
      destruct (pimm_read a _ H j2) as [row|e] eqn:EP; [|discriminate].
      unfold bind at 1 in E. destruct (pimm_loop _ _ _ _ _ _ _) as [st [rs|e]] eqn:EL; [|discriminate]. unfold ret in E. injection E as <- <-.
      pose proof (kin_ids _ _ K) as [EI EN]. rewrite <- EI, <- (kin_moment _ _ K) in EL. apply IH in EL; [|exact NM2|rewrite EI; exact NA].
      econstructor; [exact PF|exact EX| |exact EL]. apply (read_iff a (pa_int_step a) (j_layers j) N s j2); try assumption; [reflexivity|]. apply PF.
    + intros E. inversion E as [|H' Hs' j' pos' j1 j2 N' s' row rs fin PF EX PR PC]; subst.
      assert (ER : runSimulation (pa_simulation a) (pa_int_step a) (pa_int_step a) false RK4 j1 = (j2, Ok tt)) by apply EX.
      assert (EM := proj2 (measure_iff rnd H oe (pa_disturbance a) (pa_simulation a) (pa_int_step a) j pos j2 (pos + drawn (pa_disturbance a) (layerNo j)) (proj2 (proj2 NM)) NA) (ex_intro _ j1 (conj PF (conj ER eq_refl)))).
      unfold bind at 1. rewrite EM. unfold bind at 1, get. unfold bind at 1, lift. cbn [fst].
      destruct (measured _ _ _ _ _ _ _ _ _ _ NM PF ER) as (N & s & EX' & K & NM2 & LR).
      destruct (experiment_det _ _ _ _ _ _ _ _ _ EX' EX) as (EN & _ & ES). subst N'. apply (logged_eq _ _ _ _ _ _ ES) in LR.
      apply (read_iff a (pa_int_step a) (j_layers j) N s' j2) in PR; try assumption; [|reflexivity|apply PF]. rewrite PR.
      pose proof (kin_ids _ _ K) as [EI ENo]. apply IH in PC; [|exact NM2|rewrite EI; exact NA]. rewrite EI, (kin_moment _ _ K) in PC.
      unfold bind at 1. rewrite PC. reflexivity.
Qed.
End Loop.

(** ** The collected output *)
Lemma F2_length {X Y} (Q : X -> Y -> Prop) xs ys : Forall2 Q xs ys -> length xs = length ys.
Proof. intros H. induction H; cbn; congruence. Qed.
Lemma flat_some {X Y} (g : X -> option Y) rows : (forall r, In r rows -> g r <> None) -> Forall2 (fun r x => g r = Some x) rows (flatten_opt (map g rows)).
Proof.
  induction rows as [|r rows IH]; intros H; [constructor|]. cbn. destruct (g r) as [x|] eqn:E; [|exfalso; exact (H r (or_introl eq_refl) E)].
  cbn. constructor; [exact E|]. apply IH. intros q Hq. apply H. right. exact Hq.
Qed.
Lemma flat_none {X Y} (g : X -> option Y) rows : (forall r, In r rows -> g r = None) -> flatten_opt (map g rows) = [].
Proof. induction rows as [|r rows IH]; intros H; [reflexivity|]. cbn. rewrite (H r (or_introl eq_refl)). cbn. apply IH. intros q Hq. apply H. right. exact Hq. Qed.
Lemma rev_last {X} (xs : list X) x : nth_error xs (length xs - 1) = Some x -> exists ys, rev xs = x :: ys.
Proof.
  intros E. destruct (@exists_last X xs) as (ys & y & ->).
  - intros ->. discriminate.
  - revert E. rewrite app_length. cbn [length]. rewrite nth_error_app2 by lia. replace (length ys + 1 - 1 - length ys)%nat with 0%nat by lia. intros E. injection E as <-. rewrite rev_app_distr. exists (rev ys). reflexivity.
Qed.
Definition good_row {A} (a : pimm_args A) (n : nat) (row : pimm_row A) : Prop :=
  (pa_static a = true -> pr_spectrum row = None) /\ (pa_static a = false -> pr_spectrum row <> None) /\
  (pa_full a && negb (pa_static a) = true -> exists t ys, pr_full row = Some (t, ys) /\ length ys = n) /\ (pa_full a && negb (pa_static a) = false -> pr_full row = None).
Lemma result_good {A} (a : pimm_args A) ls H N s row : pimm_result a ls H N s row -> good_row a (length ls) row.
Proof.
  intros (_ & _ & _ & _ & _ & S1 & S2 & F1 & F2). split; [exact S1|]. split; [intros E; destruct (S2 E) as (y & f & -> & _); discriminate|]. split.
  - intros E. apply andb_prop in E. destruct E as [E1 E2]. destruct (pa_static a); [discriminate|]. destruct (F1 (conj E1 eq_refl)) as (ys & -> & L & _). exists (mapi (fun p l => map (Scal (weight ls l)) (samples s N p)) 0 ls), ys. split; [reflexivity|exact L].
  - intros E. apply F2. destruct (pa_full a); [|left; reflexivity]. destruct (pa_static a); [right; reflexivity|discriminate].
Qed.
Lemma fields_good {A} rnd (a : pimm_args A) oe Hs st final rows : named (fst st) -> pimm_fields rnd a oe Hs st final rows -> Forall (good_row a (layerNo (fst st))) rows.
Proof.
  intros NM F. induction F as [j pos|H Hs j pos j1 j2 N s row rows final PF EX PR PC IH]; [constructor|]. cbn [fst] in *. constructor; [exact (result_good _ _ _ _ _ _ PR)|].
  destruct (measured _ _ _ _ _ _ _ _ _ _ NM PF (proj1 EX)) as (_ & _ & _ & K & NM2 & _). rewrite <- (proj2 (kin_ids _ _ K)). apply IH, NM2.
Qed.
Lemma collect_output {A} (a : pimm_args A) ids rows : Forall (good_row a (length ids)) rows -> pimm_output a ids rows (pimm_collect a ids rows).
Proof.
  intros G. rewrite Forall_forall in G. unfold pimm_output, pimm_collect. cbn [po_H po_Rx po_Ry po_m_avg po_spectrum po_freqs po_m_traj po_layers].
  set (specs := flatten_opt (map (@pr_spectrum A) rows)). set (fulls := flatten_opt (map (@pr_full A) rows)).
  assert (FU : pa_full a && negb (pa_static a) = true -> Forall2 (fun r x => pr_full r = Some x) rows fulls).
  { intros E. apply flat_some. intros r Hr. destruct (G r Hr) as (_ & _ & X & _). destruct (X E) as (t & ys & -> & _). discriminate. }
  assert (FN : pa_full a && negb (pa_static a) = false -> fulls = []).
  { intros E. apply flat_none. intros r Hr. exact (proj2 (proj2 (proj2 (G r Hr))) E). }
  do 4 (split; [reflexivity|]). split.
  { intros E. assert (X : specs = []) by (apply flat_none; intros r Hr; exact (proj1 (G r Hr) E)). rewrite X. split; reflexivity. }
  split.
  { intros E. assert (X : Forall2 (fun r x => pr_spectrum r = Some x) rows specs) by (apply flat_some; intros r Hr; exact (proj1 (proj2 (G r Hr)) E)).
    pose proof (F2_length _ _ _ X) as L. rewrite map_length. split; [symmetry; exact L|]. apply Forall2_nth in X. destruct X as [_ X]. split; [|split].
    - intros i row y Hr Hy. rewrite nth_error_map in Hy. destruct (nth_error specs i) as [[y0 f]|] eqn:Es; [|discriminate]. injection Hy as <-. exists f. exact (X i row _ Hr Es).
    - intros ->. destruct specs; [reflexivity|discriminate].
    - intros row Hr. rewrite L in Hr. destruct (nth_error specs (length specs - 1)) as [[y f]|] eqn:Es.
      + exists y, f. split; [exact (X _ _ _ Hr Es)|]. destruct (rev_last _ _ Es) as (ys & ->). reflexivity.
      + exfalso. apply nth_error_None in Es. assert (length specs - 1 < length rows)%nat by (apply nth_error_Some; congruence). destruct specs; cbn in *; lia. }
  split; [intros E; rewrite (FN E); reflexivity|]. split.
  { intros E. specialize (FU E). rewrite map_length. split; [symmetry; exact (F2_length _ _ _ FU)|]. apply Forall2_nth in FU. destruct FU as [_ FU].
    intros i row t Hr Ht. rewrite nth_error_map in Ht. destruct (nth_error fulls i) as [[t0 ys]|] eqn:Ef; [|discriminate]. injection Ht as <-. exists ys. exact (FU i row _ Hr Ef). }
  split; [intros E; rewrite E; reflexivity|]. intros E. rewrite E. split.
  { rewrite map_map. cbn [fst]. clear. assert (X : forall i, map (fun x : nat * string => snd x) (combine (seq i (length ids)) ids) = ids); [|apply X]. induction ids as [|x xs IH]; intros i; [reflexivity|]. cbn. f_equal. apply IH. }
  intros p id ys Hp. rewrite nth_error_map in Hp. destruct (nth_error (combine (seq 0 (length ids)) ids) p) as [[q x]|] eqn:Ec; [|discriminate]. injection Hp as <- <-.
  assert (Q : q = p /\ (p < length ids)%nat).
  { assert (X : forall i p, nth_error (combine (seq i (length ids)) ids) p = Some (q, x) -> q = (i + p)%nat /\ (p < length ids)%nat).
    { clear. induction ids as [|z zs IH]; intros i [|p] E; cbn in E; try discriminate; [injection E as <- <-; cbn; lia|]. destruct (IH _ _ E). cbn. lia. }
    destruct (X _ _ Ec). split; [assumption|assumption]. }
  destruct Q as [-> Q]. cbn [fst]. split.
  - intros S. rewrite S, Bool.andb_false_r in FN. rewrite (FN eq_refl). reflexivity.
  - intros S. rewrite E, S in FU. specialize (FU eq_refl). rewrite map_length. split; [symmetry; exact (F2_length _ _ _ FU)|]. apply Forall2_nth in FU. destruct FU as [_ FU].
    intros i row y Hr Hy. rewrite nth_error_map in Hy. destruct (nth_error fulls i) as [[t all]|] eqn:Ef; [|discriminate]. injection Hy as <-. cbn [snd]. exists t, all. pose proof (FU i row _ Hr Ef) as Z. split; [exact Z|].
    destruct (G row (nth_error_In _ _ Hr)) as (_ & _ & X & _). rewrite E, S in X. destruct (X eq_refl) as (t' & ys' & Z' & L). rewrite Z in Z'. injection Z' as <- <-. apply nth_error_nth'. lia.
Qed.
Lemma nth_ext_some {X} (xs ys : list X) : length xs = length ys -> (forall i x y, nth_error xs i = Some x -> nth_error ys i = Some y -> x = y) -> xs = ys.
Proof.
  intros L H. apply list_ext. intros i. destruct (nth_error xs i) as [x|] eqn:E, (nth_error ys i) as [y|] eqn:F; try reflexivity.
  - f_equal. exact (H i x y E F).
  - exfalso. apply nth_error_None in F. assert (i < length xs)%nat by (apply nth_error_Some; congruence). lia.
  - exfalso. apply nth_error_None in E. assert (i < length ys)%nat by (apply nth_error_Some; congruence). lia.
Qed.
Lemma row_index {X Y} (rows : list X) (ys : list Y) i y : length ys = length rows -> nth_error ys i = Some y -> exists r, nth_error rows i = Some r.
Proof. intros L H. destruct (nth_error rows i) as [r|] eqn:E; [exists r; reflexivity|]. exfalso. apply nth_error_None in E. assert (i < length ys)%nat by (apply nth_error_Some; congruence). lia. Qed.
Lemma output_unique {A} (a : pimm_args A) ids rows o o' : pimm_output a ids rows o -> pimm_output a ids rows o' -> o = o'.
Proof.
  intros (H & X & Y & M & S1 & S2 & T1 & T2 & L1 & L2) (H' & X' & Y' & M' & S1' & S2' & T1' & T2' & L1' & L2').
  assert (ES : po_spectrum o = po_spectrum o' /\ po_freqs o = po_freqs o').
  { destruct (pa_static a) eqn:E.
    - destruct (S1 eq_refl), (S1' eq_refl). split; congruence.
    - destruct (S2 eq_refl) as (Ln & P & Z & Q), (S2' eq_refl) as (Ln' & P' & Z' & Q'). split.
      + apply nth_ext_some; [congruence|]. intros i y y' Hy Hy'. destruct (row_index rows _ _ _ Ln Hy) as (r & Hr).
        destruct (P _ _ _ Hr Hy) as (f & Ef), (P' _ _ _ Hr Hy') as (f' & Ef'). congruence.
      + destruct rows as [|r0 rs]; [rewrite (Z eq_refl), (Z' eq_refl); reflexivity|]. destruct (nth_error (r0 :: rs) (length (r0 :: rs) - 1)) as [r|] eqn:Er.
        * destruct (Q r eq_refl) as (y & f & E1 & ->), (Q' r eq_refl) as (y' & f' & E1' & ->). congruence.
        * exfalso. apply nth_error_None in Er. cbn in Er. lia. }
  assert (ET : po_m_traj o = po_m_traj o').
  { destruct (pa_full a && negb (pa_static a)) eqn:E; [|rewrite T1, T1' by reflexivity; reflexivity].
    destruct (T2 eq_refl) as (Ln & P), (T2' eq_refl) as (Ln' & P'). apply nth_ext_some; [congruence|]. intros i y y' Hy Hy'. destruct (row_index rows _ _ _ Ln Hy) as (r & Hr).
    destruct (P _ _ _ Hr Hy) as (f & Ef), (P' _ _ _ Hr Hy') as (f' & Ef'). congruence. }
  assert (EL : po_layers o = po_layers o').
  { destruct (pa_full a) eqn:E; [|rewrite L1, L1' by reflexivity; reflexivity]. destruct (L2 eq_refl) as (I & P), (L2' eq_refl) as (I' & P').
    apply nth_ext_some; [rewrite <- (map_length fst), <- (map_length fst (po_layers o')); congruence|]. intros p [id ys] [id' ys'] Hy Hy'.
    assert (id' = id). { pose proof (map_nth_error fst _ _ Hy) as A1. pose proof (map_nth_error fst _ _ Hy') as A2. cbn in A1, A2. congruence. } subst id'. f_equal.
    destruct (P _ _ _ Hy) as [P1 P2], (P' _ _ _ Hy') as [P1' P2']. destruct (pa_static a); [rewrite P1, P1' by reflexivity; reflexivity|].
    destruct (P2 eq_refl) as (Ln & Q), (P2' eq_refl) as (Ln' & Q'). apply nth_ext_some; [congruence|]. intros i y y' Hi Hi'. destruct (row_index rows _ _ _ Ln Hi) as (r & Hr).
    destruct (Q _ _ _ Hr Hi) as (t & all & E1 & E2), (Q' _ _ _ Hr Hi') as (t' & all' & E1' & E2'). congruence. }
  destruct o, o'. cbn in *. destruct ES. congruence.
Qed.
Lemma oe_driver_along a d : oe_driver a d = along_axis a d.
Proof. destruct a; reflexivity. Qed.
Lemma step_driver_iff amp stop d : getStepDriver 0 amp 0 stop = Ok d <-> 0 < stop /\ d = field_pulse amp stop.
Proof.
  unfold getStepDriver. destruct (Rle_dec stop 0) as [H|H]; [split; [discriminate|intros [X _]; lra]|]. cbn. split; [intros E; injection E as <-; split; [lra|reflexivity]|intros [_ ->]; reflexivity].
Qed.
Lemma sum_total_moment ls : sum_list (map (fun l => l_thickness l * l_Ms l) ls) = total_moment ls.
Proof. unfold sum_list. induction ls as [|l ls IH]; [reflexivity|]. cbn. rewrite IH. reflexivity. Qed.
Theorem pimm_iff {A} rnd (a : pimm_args A) j pos st' o : named j -> ~ In "all"%string (ids j) ->
  PIMM_procedure rnd a (j, pos) = (st', Ok o) <->
  pa_wait a <= pa_simulation a /\ 0 < pa_int_step a * pa_duration a /\ length (pa_params a) = layerNo j /\
  exists rows, pimm_fields rnd a (along_axis (pa_direction a) (field_pulse (pa_excitation a) (pa_int_step a * pa_duration a))) (pa_Hvecs a) (j, pos) st' rows /\
    pimm_output a (ids j) rows o.
Proof.
  intros NM NA. unfold PIMM_procedure. destruct (Rlt_dec (pa_simulation a) (pa_wait a)) as [W|W]; [split; [discriminate|intros (X & _); lra]|].
  destruct (getStepDriver 0 (pa_excitation a) 0 (pa_int_step a * pa_duration a)) as [d|e] eqn:ED.
  2: { split; [discriminate|]. intros (_ & P & _). rewrite (proj2 (step_driver_iff (pa_excitation a) (pa_int_step a * pa_duration a) _) (conj P eq_refl)) in ED. discriminate. }
  apply step_driver_iff in ED. destruct ED as [P ->]. unfold bind at 1, lift at 1. unfold bind at 1, get. cbn [fst]. change (getLayerIds j) with (ids j). rewrite oe_driver_along, sum_total_moment.
  destruct (Nat.eqb (length (ids j)) (length (pa_params a))) eqn:EL; cbn [negb].
  2: { apply Nat.eqb_neq in EL. split; [discriminate|]. intros (_ & _ & X & _). exfalso. apply EL. unfold ids. rewrite map_length, X. reflexivity. }
  apply Nat.eqb_eq in EL. assert (LN : length (ids j) = layerNo j) by (unfold ids; apply map_length).
  unfold bind at 1. split.
  - intros E. destruct (pimm_loop _ _ _ _ _ _ _) as [st [rows|e]] eqn:ELP; [|discriminate]. unfold ret in E. injection E as <- <-. apply loop_iff in ELP; [|exact NM|exact NA].
    split; [lra|]. split; [exact P|]. split; [congruence|]. exists rows. split; [exact ELP|]. apply collect_output. rewrite LN. exact (fields_good _ _ _ _ (j, pos) _ _ NM ELP).
  - intros (_ & _ & _ & rows & F & O). pose proof (fields_good _ _ _ _ (j, pos) _ _ NM F) as G. apply loop_iff in F; [|exact NM|exact NA]. rewrite F. unfold ret. f_equal. f_equal.
    cbn [fst] in G. rewrite <- LN in G. exact (output_unique _ _ _ _ _ (collect_output _ _ _ G) O).
Qed.
