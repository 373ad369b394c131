(** Whole runs: solver selection, logging, main loop. *)
From Verif Require Export S_Run P_Step4 P_Drivers.
Open Scope R_scope.
Open Scope st_scope.

(** ** Solver selection *)
Lemma create_iff N l l' r : l_nScale l <> 0 -> createBufferedAlphaNoise N l = (l', Ok r) <-> preparable N l /\ l' = prepared l.
Proof.
  intros HS. unfold createBufferedAlphaNoise, preparable, prepared, bind, get, modify, fail.
  destruct (Req_EM_T (l_nScale l) 0) as [E|_]; [contradiction|].
  destruct r. destruct (Rlt_dec (l_nAlpha l) 0) as [H|H].
  - split; [discriminate|]. intros [[E|(E & _)] _]; [contradiction|lra].
  - assert (HA : 0 <= l_nAlpha l) by lra.
    destruct (l_nAxis l) eqn:EA; destruct (Nat.eqb_spec N 0) as [EN|EN]; split.
    all: try (intros E; discriminate).
    all: try (intros [[E|(E1 & E2 & E3)] ->]; [contradiction|exfalso; congruence]).
    all: try (intros E; injection E as <-; split; [right; repeat split; [exact HA|congruence|exact EN]|reflexivity]).
    all: try (intros [_ ->]; reflexivity).
Qed.
Definition bump (m : solver_mode) : solver_mode := match m with HEUN => HEUN | _ => EULER_HEUN end.
Lemma noisy_dec l : noisy l \/ ~ noisy l.
Proof.
  unfold noisy. destruct (l_temperatureSet l); [left; left; reflexivity|].
  destruct (Req_EM_T (l_nScale l) 0) as [E|E]; [right; intros [H|H]; [discriminate|contradiction]|left; right; exact E].
Qed.
Lemma noisy_list_dec ls : (exists k, In k ls /\ noisy k) \/ ~ (exists k, In k ls /\ noisy k).
Proof.
  induction ls as [|l ls [(k & Hk & Hn)|IH]].
  - right. intros (k & [] & _).
  - left. exists k. split; [right; exact Hk|exact Hn].
  - destruct (noisy_dec l) as [H|H]; [left; exists l; split; [left; reflexivity|exact H]|].
    right. intros (k & [<-|Hk] & Hn); [contradiction|]. apply IH. eauto.
Qed.
Lemma getSolver_loop_iff mode N ls ls' m :
  getSolver_loop mode N ls = (ls', Ok m) <->
  (forall l, In l ls -> preparable N l) /\ ls' = map prepared ls /\ mode_table (exists l, In l ls /\ noisy l) mode m.
Proof.
  revert mode ls'. induction ls as [|l rest IH]; intros mode ls'.
  - cbn. split.
    + intros E. injection E as <- <-. split; [intros ? []|]. split; [reflexivity|]. split; [intros (? & [] & _)|reflexivity].
    + intros (_ & -> & [_ H]). rewrite H; [reflexivity|]. intros (? & [] & _).
  - cbn [getSolver_loop map].
    set (mode1 := if l_temperatureSet l then if is_stochastic_mode mode then mode else EULER_HEUN else mode).
    assert (H1 : l_temperatureSet l = true -> mode1 = bump mode) by (unfold mode1; intros ->; destruct mode; reflexivity).
    assert (H2 : l_temperatureSet l = false -> mode1 = mode) by (unfold mode1; intros ->; reflexivity).
    clearbody mode1.
    assert (TBL : forall mode', (noisy l -> mode' = bump mode) -> (~ noisy l -> mode' = mode) ->
       (mode_table (exists k, In k rest /\ noisy k) mode' m <-> mode_table (exists k, In k (l :: rest) /\ noisy k) mode m)).
    { intros mode' A B. unfold mode_table. split; intros [T1 T2]; split.
      - intros (k & [<-|Hk] & Hn).
        + rewrite (A Hn) in T1, T2. destruct (noisy_list_dec rest) as [X|X].
          * rewrite (T1 X). destruct mode; reflexivity.
          * rewrite (T2 X). destruct mode; reflexivity.
        + assert (X : exists k, In k rest /\ noisy k) by eauto. rewrite (T1 X).
          destruct (noisy_dec l) as [N1|N1]; [rewrite (A N1)|rewrite (B N1)]; destruct mode; reflexivity.
      - intros X. assert (N1 : ~ noisy l) by (intros Hn; apply X; exists l; split; [left; reflexivity|exact Hn]).
        rewrite <- (B N1). apply T2. intros (k & Hk & Hn). apply X. exists k. split; [right; exact Hk|exact Hn].
      - intros (k & Hk & Hn). rewrite T1 by (exists k; split; [right; exact Hk|exact Hn]).
        destruct (noisy_dec l) as [N1|N1]; [rewrite (A N1)|rewrite (B N1)]; destruct mode; reflexivity.
      - intros X. destruct (noisy_dec l) as [N1|N1].
        + rewrite (A N1). apply T1. exists l. split; [left; reflexivity|exact N1].
        + rewrite (B N1). apply T2. intros (k & [<-|Hk] & Hn); [contradiction|]. apply X. eauto. }
    destruct (Req_EM_T (l_nScale l) 0) as [E0|E0].
    + assert (EP : prepared l = l) by (unfold prepared; destruct (Req_EM_T (l_nScale l) 0); [reflexivity|contradiction]).
      rewrite EP. rewrite <- (TBL mode1).
      * split.
        -- destruct (getSolver_loop mode1 N rest) as [rest' r] eqn:ER. intros E. injection E as <- ->.
           apply IH in ER. destruct ER as (A & -> & B). split; [|split; [reflexivity|exact B]].
           intros k [<-|Hk]; [left; exact E0|auto].
        -- intros (A & -> & B). rewrite (proj2 (IH mode1 (map prepared rest))); [reflexivity|].
           split; [intros k Hk; apply A; right; exact Hk|]. split; [reflexivity|exact B].
      * intros [Ht|Hs]; [auto|contradiction].
      * intros Hn. apply H2. destruct (l_temperatureSet l) eqn:ET; [|reflexivity]. exfalso. apply Hn. left. exact ET.
    + set (mode2 := if is_stochastic_mode mode1 then mode1 else EULER_HEUN).
      rewrite <- (TBL mode2).
      * split.
        -- destruct (createBufferedAlphaNoise N l) as [l1 [u|e]] eqn:EC; [|discriminate].
           apply create_iff in EC; [|exact E0]. destruct EC as [PL ->].
           destruct (getSolver_loop mode2 N rest) as [rest' r] eqn:ER. intros E. injection E as <- ->.
           apply IH in ER. destruct ER as (A & -> & B). split; [|split; [reflexivity|exact B]].
           intros k [<-|Hk]; [exact PL|auto].
        -- intros (A & -> & B). rewrite (proj2 (create_iff N l (prepared l) tt E0)).
           ++ rewrite (proj2 (IH mode2 (map prepared rest))); [reflexivity|].
              split; [intros k Hk; apply A; right; exact Hk|]. split; [reflexivity|exact B].
           ++ split; [apply A; left; reflexivity|reflexivity].
      * intros _. unfold mode2. destruct (l_temperatureSet l); [rewrite H1 by reflexivity|rewrite H2 by reflexivity]; destruct mode; reflexivity.
      * intros Hn. exfalso. apply Hn. right. exact E0.
Qed.
Lemma pick_table n m : pick_runner n m = runner_table n m.
Proof. unfold pick_runner, runner_table. destruct m; try reflexivity; destruct n as [|[|n]]; reflexivity. Qed.
Lemma getSolver_iff mode N j j0 r used :
  getSolver mode N j = (j0, Ok (r, used)) <-> selects mode N j j0 r used.
Proof.
  unfold getSolver, selects. split.
  - destruct (getSolver_loop mode N (j_layers j)) as [ls [m|e]] eqn:E; [|discriminate]. intros H. injection H as <- <- <-.
    apply getSolver_loop_iff in E. destruct E as (A & -> & B). split; [exact A|]. split; [reflexivity|]. split; [exact B|].
    rewrite map_length. apply pick_table.
  - intros (A & -> & B & ->).
    rewrite (proj2 (getSolver_loop_iff mode N (j_layers j) _ used) (conj A (conj eq_refl B))).
    rewrite map_length, pick_table. reflexivity.
Qed.

(** ** Steps do not read or write the log *)
Lemma run_runner_log r t dt g n j :
  run_runner r t dt (set_j_log g n j) = (set_j_log g n (fst (run_runner r t dt j)), snd (run_runner r t dt j)).
Proof.
  destruct r; cbn [run_runner].
  - unfold runSingleLayerSolver. cbn [j_layers set_j_log]. destruct (j_layers j); [reflexivity|].
    destruct (rk4_step _ _ _ _ _); reflexivity.
  - unfold runMultiLayerSolver. cbn [j_layers set_j_log]. destruct (multi_loop _ _ _); reflexivity.
  - unfold heunSolverStep. cbn [j_layers set_j_log]. destruct (heun_pass1 _ _ _ _) as [ls [hs|e]]; [|reflexivity].
    destruct (heun_pass2 _ _ _ _ _); reflexivity.
  - unfold eulerHeunSolverStep. cbn [j_layers set_j_log]. destruct (eulerHeun_pass _ _ _ _) as [ls [hs|e]]; reflexivity.
Qed.
Lemma run_runner_keeps_log r t dt j : 
  j_log (fst (run_runner r t dt j)) = j_log j /\ j_logLength (fst (run_runner r t dt j)) = j_logLength j.
Proof.
  assert (H := run_runner_log r t dt (j_log j) (j_logLength j) j).
  replace (set_j_log (j_log j) (j_logLength j) j) with j in H by (destruct j; reflexivity).
  rewrite H at 1. rewrite H. split; reflexivity.
Qed.

(** ** The log as a list of pushes *)
Definition push_all (row : list (string * R)) (g : log_t) : log_t :=
  fold_left (fun g kv => log_push (fst kv) (snd kv) g) row g.
Lemma push_all_app a b g : push_all (a ++ b) g = push_all b (push_all a g).
Proof. apply fold_left_app. Qed.
Lemma col_push k v g key : col key (log_push k v g) = if String.eqb k key then (col key g ++ [v])%list else col key g.
Proof.
  unfold col. induction g as [|[k0 c] g IH]; cbn [log_push log_get].
  - destruct (String.eqb k key); reflexivity.
  - destruct (String.eqb_spec k0 k) as [->|H1]; cbn [log_get].
    + destruct (String.eqb k key); reflexivity.
    + destruct (String.eqb_spec k0 key) as [->|H2].
      * destruct (String.eqb_spec k key) as [E|_]; [congruence|reflexivity].
      * exact IH.
Qed.
Lemma col_push_all row g key : col key (push_all row g) = (col key g ++ values key row)%list.
Proof.
  revert g. induction row as [|[k v] row IH]; intros g.
  - cbn. rewrite app_nil_r. reflexivity.
  - change (push_all ((k, v) :: row) g) with (push_all row (log_push k v g)). rewrite IH, col_push.
    unfold values. cbn [filter fst]. destruct (String.eqb k key); [|reflexivity]. rewrite <- app_assoc. reflexivity.
Qed.
Lemma push_vec_row key v g : push_vec key v g = push_all (vec_row key v) g.
Proof. reflexivity. Qed.
Lemma log_layer_row e l g : log_layer e g l = push_all (layer_row e l) g.
Proof.
  unfold log_layer, layer_row, log_energies, energies_row. destruct e; [|reflexivity].
  destruct (l_includeSOT l), (l_includeSTT l); reflexivity.
Qed.
Lemma log_layers_row e ls g : fold_left (log_layer e) ls g = push_all (flat_map (layer_row e) ls) g.
Proof.
  revert g. induction ls as [|l ls IH]; intros g; [reflexivity|]. cbn [fold_left flat_map].
  rewrite IH, push_all_app, log_layer_row. reflexivity.
Qed.

(** ** Resistances *)
Lemma gmr_eq j c : calculateMagnetoresistance j c = GMR (j_Rp j) (j_Rap j) c.
Proof. unfold calculateMagnetoresistance, GMR. field. Qed.
Definition invsum (xs : list R) : R := fold_right (fun x a => / x + a) 0 xs.
Definition all_nonzero (xs : list R) : Prop := forall x, In x xs -> x <> 0.
Lemma mapi_length {A B} (f : nat -> A -> B) i xs : length (mapi f i xs) = length xs.
Proof. revert i. induction xs; intros i; cbn; congruence. Qed.
Lemma mapi_ext {A B} (f g : nat -> A -> B) i xs : (forall p x, nth_error xs p = Some x -> f (i + p)%nat x = g (i + p)%nat x) -> mapi f i xs = mapi g i xs.
Proof.
  revert i. induction xs as [|x xs IH]; intros i H; [reflexivity|]. cbn. f_equal.
  - specialize (H 0%nat x eq_refl). rewrite Nat.add_0_r in H. exact H.
  - apply IH. intros p y Hy. specialize (H (S p) y Hy). rewrite Nat.add_succ_r in H. exact H.
Qed.
Lemma mapi_shift {A B} (f : nat -> A -> B) i xs : mapi f (S i) xs = mapi (fun p => f (S p)) i xs.
Proof. revert i. induction xs as [|x xs IH]; intros i; [reflexivity|]. cbn. f_equal. apply IH. Qed.
Lemma strip_acc_iff ls : forall X0 Y0 AX SX AY SY H ax ay r,
  strip_acc ls X0 Y0 AX SX AY SY H ax ay = Ok r ->
  let xs := mapi (fun p l => nth p X0 0 + nth p AX 0 * (cx (l_mag l) * cx (l_mag l)) + nth p SX 0 * (cy (l_mag l) * cy (l_mag l))) 0 ls in
  let ys := mapi (fun p l => nth p Y0 0 + nth p H 0 * cz (l_mag l) / 2 + (nth p AY 0 + nth p SY 0) * (cx (l_mag l) * cy (l_mag l))) 0 ls in
  all_nonzero xs /\ all_nonzero ys /\ r = (ax + invsum xs, ay + invsum ys).
Proof.
  induction ls as [|l ls IH]; intros X0 Y0 AX SX AY SY H ax ay r E; cbv zeta.
  - cbn in E. injection E as <-. split; [intros ? []|]. split; [intros ? []|]. cbn. rewrite !Rplus_0_r. reflexivity.
  - cbn [strip_acc] in E. destruct X0 as [|x0 X0]; [discriminate|]. destruct Y0 as [|y0 Y0]; [discriminate|].
    destruct AX as [|a AX]; [discriminate|]. destruct SX as [|s SX]; [discriminate|]. destruct AY as [|b AY]; [discriminate|].
    destruct SY as [|c SY]; [discriminate|]. destruct H as [|h H]; [discriminate|].
    apply rbind_inv in E. destruct E as (ix & E1 & E). apply rbind_inv in E. destruct E as (iy & E2 & E).
    apply fdiv_inv in E1. apply fdiv_inv in E2. destruct E1 as [N1 ->]. destruct E2 as [N2 ->].
    apply IH in E. destruct E as (A & B & ->). cbn [mapi nth]. rewrite !mapi_shift. cbn [nth].
    assert (EY : y0 + 1 / 2 * h * cz (l_mag l) + (b + c) * cx (l_mag l) * cy (l_mag l) =
                 y0 + h * cz (l_mag l) / 2 + (b + c) * (cx (l_mag l) * cy (l_mag l))) by field.
    rewrite EY in *. split; [|split].
    + intros z [<-|Hz]; [exact N1|exact (A z Hz)].
    + intros z [<-|Hz]; [exact N2|exact (B z Hz)].
    + cbn [invsum fold_right]. f_equal; unfold Rdiv; rewrite Rmult_1_l; unfold invsum; ring.
Qed.
Lemma strip_acc_complete ls : forall X0 Y0 AX SX AY SY H ax ay,
  length X0 = length ls -> length Y0 = length ls -> length AX = length ls -> length SX = length ls ->
  length AY = length ls -> length SY = length ls -> length H = length ls ->
  all_nonzero (mapi (fun p l => nth p X0 0 + nth p AX 0 * (cx (l_mag l) * cx (l_mag l)) + nth p SX 0 * (cy (l_mag l) * cy (l_mag l))) 0 ls) ->
  all_nonzero (mapi (fun p l => nth p Y0 0 + nth p H 0 * cz (l_mag l) / 2 + (nth p AY 0 + nth p SY 0) * (cx (l_mag l) * cy (l_mag l))) 0 ls) ->
  exists r, strip_acc ls X0 Y0 AX SX AY SY H ax ay = Ok r.
Proof.
  induction ls as [|l ls IH]; intros X0 Y0 AX SX AY SY H ax ay L1 L2 L3 L4 L5 L6 L7 A B.
  - cbn. eauto.
  - destruct X0 as [|x0 X0]; [discriminate|]. destruct Y0 as [|y0 Y0]; [discriminate|].
    destruct AX as [|a AX]; [discriminate|]. destruct SX as [|s SX]; [discriminate|]. destruct AY as [|b AY]; [discriminate|].
    destruct SY as [|c SY]; [discriminate|]. destruct H as [|h H]; [discriminate|].
    cbn [mapi nth] in A, B. rewrite mapi_shift in A, B. cbn [nth] in A, B. cbn [strip_acc].
    rewrite fdiv_ok by (apply A; left; reflexivity). cbn [rbind]. rewrite fdiv_ok.
    + cbn [rbind]. apply IH; try (cbn in *; congruence).
      * intros z Hz. apply A. right. exact Hz.
      * intros z Hz. apply B. right. exact Hz.
    + assert (EY : y0 + 1 / 2 * h * cz (l_mag l) + (b + c) * cx (l_mag l) * cy (l_mag l) =
                 y0 + h * cz (l_mag l) / 2 + (b + c) * (cx (l_mag l) * cy (l_mag l))) by field.
      rewrite EY. apply B. left. reflexivity.
Qed.
Lemma strip_sound j rs : stripMagnetoResistance j = Ok rs ->
  exists rx ry, ParallelOf (mapi (strip_long j) 0 (j_layers j)) rx /\ ParallelOf (mapi (strip_trans j) 0 (j_layers j)) ry /\
    rs = [rx; ry; 0].
Proof.
  unfold stripMagnetoResistance. intros E. apply rbind_inv in E. destruct E as (a & E1 & E).
  apply strip_acc_iff in E1. destruct E1 as (A & B & ->). cbn [fst snd] in E. rewrite !Rplus_0_l in E.
  apply rbind_inv in E. destruct E as (rx & E1 & E). apply fdiv_inv in E1. destruct E1 as [N1 ->].
  apply rbind_inv in E. destruct E as (ry & E1 & E). apply fdiv_inv in E1. destruct E1 as [N2 ->].
  injection E as <-. do 2 eexists. split; [|split; [|reflexivity]].
  - split; [exact A|]. split; [exact N1|]. unfold Rdiv. rewrite Rmult_1_l. reflexivity.
  - split; [exact B|]. split; [exact N2|]. unfold Rdiv. rewrite Rmult_1_l. reflexivity.
Qed.
Lemma strip_complete j rx ry : strip_sized j ->
  ParallelOf (mapi (strip_long j) 0 (j_layers j)) rx -> ParallelOf (mapi (strip_trans j) 0 (j_layers j)) ry ->
  stripMagnetoResistance j = Ok [rx; ry; 0].
Proof.
  intros (L1 & L2 & L3 & L4 & L5 & L6 & L7) (A & N1 & ->) (B & N2 & ->). unfold stripMagnetoResistance.
  destruct (strip_acc_complete (j_layers j) (j_Rx0 j) (j_Ry0 j) (j_AMR_X j) (j_SMR_X j) (j_AMR_Y j) (j_SMR_Y j) (j_AHE j) 0 0) as [a E]; try assumption.
  rewrite E. apply strip_acc_iff in E. destruct E as (_ & _ & ->). cbn [rbind fst snd]. rewrite !Rplus_0_l.
  rewrite fdiv_ok by exact N1. cbn [rbind]. rewrite fdiv_ok by exact N2. cbn [rbind]. unfold Rdiv. rewrite !Rmult_1_l. reflexivity.
Qed.
Lemma resistance_sound j g g' : log_resistance j g = Ok g' -> exists rr, resistance_row j rr /\ g' = push_all rr g.
Proof.
  unfold log_resistance, resistance_row. destruct (j_mode j).
  - intros E. injection E as <-. exists []. split; reflexivity.
  - destruct (j_layers j) as [|l0 [|l1 rest]]; intros E; injection E as <-.
    + exists []. split; reflexivity.
    + eexists. split; [reflexivity|]. rewrite gmr_eq, c_dot_Dot. reflexivity.
    + eexists. split; [reflexivity|]. rewrite gmr_eq, c_dot_Dot. reflexivity.
  - intros E. apply rbind_inv in E. destruct E as (rs & E1 & E). apply strip_sound in E1.
    destruct E1 as (rx & ry & A & B & ->). injection E as <-. eexists. split; [exists rx, ry; split; [exact A|split; [exact B|reflexivity]]|reflexivity].
Qed.
Lemma strip_reading j rs : j_mode j = MR_STRIP ->
  (getMagnetoresistance j = Ok rs -> exists rx ry, ParallelOf (mapi (strip_long j) 0 (j_layers j)) rx /\
     ParallelOf (mapi (strip_trans j) 0 (j_layers j)) ry /\ rs = [rx; ry; 0]) /\
  (forall rx ry, strip_sized j -> ParallelOf (mapi (strip_long j) 0 (j_layers j)) rx ->
     ParallelOf (mapi (strip_trans j) 0 (j_layers j)) ry -> getMagnetoresistance j = Ok [rx; ry; 0]).
Proof.
  intros M. assert (E : getMagnetoresistance j = stripMagnetoResistance j) by (unfold getMagnetoresistance; rewrite M; reflexivity).
  rewrite E. split; [apply strip_sound|intros; apply strip_complete; assumption].
Qed.
Lemma resistance_complete j g rr : (j_mode j = MR_STRIP -> strip_sized j) -> resistance_row j rr -> log_resistance j g = Ok (push_all rr g).
Proof.
  unfold log_resistance, resistance_row. intros HS. destruct (j_mode j).
  - intros ->. reflexivity.
  - destruct (j_layers j) as [|l0 [|l1 rest]]; intros ->; try reflexivity; rewrite gmr_eq, c_dot_Dot; reflexivity.
  - intros (rx & ry & A & B & ->). rewrite (strip_complete j rx ry (HS eq_refl) A B). reflexivity.
Qed.
Lemma log_sound t dt e j j' : logLayerParams t dt e j = (j', Ok tt) ->
  exists row, log_row e j t row /\ j' = set_j_log (push_all row (j_log j)) (S (j_logLength j)) j.
Proof.
  unfold logLayerParams. rewrite log_layers_row. destruct (log_resistance j _) as [g|err] eqn:E; [|discriminate].
  intros H. injection H as <-. apply resistance_sound in E. destruct E as (rr & Hr & ->).
  eexists. split; [exists rr; split; [exact Hr|reflexivity]|]. rewrite !push_all_app. reflexivity.
Qed.
Lemma log_complete t dt e j row : (j_mode j = MR_STRIP -> strip_sized j) -> log_row e j t row ->
  logLayerParams t dt e j = (set_j_log (push_all row (j_log j)) (S (j_logLength j)) j, Ok tt).
Proof.
  intros HS (rr & Hr & ->). unfold logLayerParams. rewrite log_layers_row, (resistance_complete j _ rr HS Hr), !push_all_app.
  reflexivity.
Qed.

(** ** Main loop *)
Definition logged (w i n : nat) : list nat := filter (fun q => Nat.eqb (q mod w) 0) (seq i n).
Lemma log_row_log e g n j t row : log_row e (set_j_log g n j) t row <-> log_row e j t row.
Proof. split; intros H; exact H. Qed.
Lemma Forall2_impl_In {A B} (P Q : A -> B -> Prop) xs ys :
  (forall a b, In a xs -> P a b -> Q a b) -> Forall2 P xs ys -> Forall2 Q xs ys.
Proof. intros H F. induction F; constructor; [apply H; [left; reflexivity|assumption]|]. apply IHF. intros. apply H; [right|]; assumption. Qed.
Definition push_rows (rows : list (list (string * R))) (g : log_t) : log_t := fold_left (fun g row => push_all row g) rows g.
Lemma set_log_twice g n g' n' j : set_j_log g n (set_j_log g' n' j) = set_j_log g n j.
Proof. reflexivity. Qed.
Lemma set_log_self j : set_j_log (j_log j) (j_logLength j) j = j.
Proof. destruct j; reflexivity. Qed.
Lemma sim_sound r dt w e n : forall i j j', sim_loop r dt w e n i j = (j', Ok tt) ->
  exists s rows, s 0%nat = j /\
    (forall k, (k < n)%nat -> run_runner r (INR (i + k) * dt) dt (s k) = (s (S k), Ok tt)) /\
    (n = 0%nat \/ (w > 0)%nat) /\
    Forall2 (fun q row => log_row e (s (S (q - i))) (INR q * dt) row) (logged w i n) rows /\
    j' = set_j_log (push_rows rows (j_log j)) (j_logLength j + length rows) (s n).
Proof.
  induction n as [|n IH]; intros i j j' E; cbn [sim_loop] in E.
  - apply ret_inv in E. destruct E as [-> _]. exists (fun _ => j), []. split; [reflexivity|].
    split; [intros; lia|]. split; [auto|]. split; [constructor|]. cbn. rewrite Nat.add_0_r, set_log_self. reflexivity.
  - apply bind_inv in E. destruct E as (j1 & [] & E1 & E). apply bind_inv in E. destruct E as (j2 & [] & E2 & E).
    assert (K := run_runner_keeps_log r (INR i * dt) dt j). rewrite E1 in K. cbn [fst] in K. destruct K as [K1 K2].
    destruct (Nat.eqb_spec w 0) as [Ew|Ew]; [discriminate|].
    assert (H2 : exists rows2, (if Nat.eqb (i mod w) 0 then exists row, log_row e j1 (INR i * dt) row /\ rows2 = [row] else rows2 = []) /\
        j2 = set_j_log (push_rows rows2 (j_log j)) (j_logLength j + length rows2) j1).
    { destruct (Nat.eqb (i mod w) 0).
      - apply log_sound in E2. destruct E2 as (row & Hr & ->). exists [row]. split; [eauto|].
        rewrite K1, K2. cbn. rewrite Nat.add_1_r. reflexivity.
      - apply ret_inv in E2. destruct E2 as [-> _]. exists []. split; [reflexivity|]. cbn.
        rewrite <- K1, <- K2, Nat.add_0_r, set_log_self. reflexivity. }
    destruct H2 as (rows2 & Hrows2 & ->). apply IH in E. destruct E as (s & rows & Hs0 & Hst & _ & HF & ->).
    exists (fun k => match k with O => j | S k => set_j_log (j_log j) (j_logLength j) (s k) end), (rows2 ++ rows)%list.
    split; [reflexivity|]. split.
    { intros [|k] Hk.
      - rewrite Nat.add_0_r, E1, Hs0. f_equal. rewrite set_log_twice, <- K1, <- K2. symmetry. apply set_log_self.
      - rewrite run_runner_log. specialize (Hst k ltac:(lia)). rewrite <- Nat.add_succ_comm. rewrite Hst. reflexivity. }
    split; [lia|]. split.
    { unfold logged. cbn [seq filter]. destruct (Nat.eqb_spec (i mod w) 0) as [Em|Em].
      - destruct Hrows2 as (row & Hr & ->). cbn [app]. constructor.
        + rewrite Nat.sub_diag, Hs0. exact Hr.
        + eapply Forall2_impl_In; [|exact HF]. intros q row' Hq Hr'. apply filter_In in Hq. destruct Hq as [Hq _].
          apply in_seq in Hq. cbv beta in Hr' |- *. replace (q - i)%nat with (S (q - S i))%nat by lia. exact Hr'.
      - subst rows2. cbn [app]. eapply Forall2_impl_In; [|exact HF]. intros q row' Hq Hr'. apply filter_In in Hq. destruct Hq as [Hq _].
          apply in_seq in Hq. cbv beta in Hr' |- *. replace (q - i)%nat with (S (q - S i))%nat by lia. exact Hr'. }
    cbn [j_log j_logLength set_j_log]. rewrite set_log_twice. unfold push_rows. rewrite fold_left_app, app_length, Nat.add_assoc. reflexivity.
Qed.
Lemma sim_complete r dt w e : (w > 0)%nat -> forall n i j s,
  s 0%nat = j -> (j_mode j = MR_STRIP -> strip_sized j) ->
  (forall k, (k < n)%nat -> run_runner r (INR (i + k) * dt) dt (s k) = (s (S k), Ok tt)) ->
  (forall q, In q (logged w i n) -> exists row, log_row e (s (S (q - i))) (INR q * dt) row) ->
  exists j', sim_loop r dt w e n i j = (j', Ok tt).
Proof.
  intros Hw. induction n as [|n IH]; intros i j s Hs0 HS Hst Hrow.
  - exists j. reflexivity.
  - cbn [sim_loop]. assert (E1 := Hst 0%nat ltac:(lia)). rewrite Nat.add_0_r, Hs0 in E1.
    unfold bind at 1. rewrite E1.
    assert (HS1 : j_mode (s 1%nat) = MR_STRIP -> strip_sized (s 1%nat)).
    { apply step_static in E1. destruct E1 as (X & HL & _). unfold strip_sized, layerNo in *. rewrite HL. rewrite X at 1.
      intros Y. specialize (HS Y). rewrite X. cbn -[length]. exact HS. }
    destruct (Nat.eqb_spec w 0) as [Ew|Ew]; [lia|].
    assert (STEP : forall g nn, exists j', sim_loop r dt w e n (S i) (set_j_log g nn (s 1%nat)) = (j', Ok tt)).
    { intros g nn. apply (IH (S i) _ (fun k => set_j_log g nn (s (S k)))).
      - reflexivity.
      - exact HS1.
      - intros k Hk. rewrite run_runner_log. specialize (Hst (S k) ltac:(lia)). rewrite <- Nat.add_succ_comm in Hst. rewrite Hst. reflexivity.
      - intros q Hq. destruct (Hrow q) as [row Hr].
        + unfold logged in *. cbn [seq filter]. destruct (Nat.eqb (i mod w) 0); [right|]; exact Hq.
        + exists row. unfold logged in Hq. apply filter_In in Hq. destruct Hq as [Hq _]. apply in_seq in Hq.
          replace (S (q - S i)) with (q - i)%nat by lia. exact Hr. }
    unfold bind. destruct (Nat.eqb (i mod w) 0) eqn:Em.
    + destruct (Hrow i) as [row Hr].
      { unfold logged. cbn [seq filter]. rewrite Em. left. reflexivity. }
      rewrite Nat.sub_diag in Hr. rewrite (log_complete _ dt _ _ _ HS1 Hr). apply STEP.
    + unfold ret. destruct (STEP (j_log (s 1%nat)) (j_logLength (s 1%nat))) as [j' E]. rewrite set_log_self in E. eauto.
Qed.

(** ** The grid *)
Lemma logged_grid_from w : (w > 0)%nat -> forall n i, 
  logged w i n = map (fun k => k * w)%nat (seq ((i + w - 1) / w) (((i + n) + w - 1) / w - (i + w - 1) / w)).
Proof.
  intros Hw. induction n as [|n IH]; intros i.
  - rewrite Nat.add_0_r, Nat.sub_diag. reflexivity.
  - unfold logged in *. cbn [seq filter]. rewrite IH. replace (S i + n)%nat with (i + S n)%nat by lia.
    assert (D := Nat.div_mod i w ltac:(lia)).
    set (q := (i / w)%nat) in *. set (r := (i mod w)%nat) in *.
    assert (Hr : (r < w)%nat) by (apply Nat.mod_upper_bound; lia).
    destruct (Nat.eqb_spec r 0) as [E|E].
    + assert (A : ((i + w - 1) / w = q)%nat). { symmetry. apply (Nat.div_unique _ _ _ (w - 1)); nia. }
      assert (B : ((S i + w - 1) / w = S q)%nat). { symmetry. apply (Nat.div_unique _ _ _ 0); nia. }
      rewrite A, B.
      assert (C : (((i + S n) + w - 1) / w >= S q)%nat). { rewrite <- B. apply Nat.div_le_mono; lia. }
      set (z := ((i + S n + w - 1) / w)%nat) in *. destruct (z - q)%nat as [|d] eqn:Ez; [lia|].
      cbn [seq map]. replace (q * w)%nat with i by nia. f_equal. replace (z - S q)%nat with d by lia. reflexivity.
    + assert (A : ((i + w - 1) / w = S q)%nat). { symmetry. apply (Nat.div_unique _ _ _ (r - 1)); nia. }
      assert (B : ((S i + w - 1) / w = S q)%nat). { symmetry. apply (Nat.div_unique _ _ _ r); nia. }
      rewrite A, B. reflexivity.
Qed.
Lemma logged_grid w N : (w > 0)%nat -> logged w 0 N = map (fun k => k * w)%nat (seq 0 (rows_needed N w)).
Proof.
  intros Hw. rewrite logged_grid_from by exact Hw. rewrite !Nat.add_0_l. 
  replace ((w - 1) / w)%nat with 0%nat by (symmetry; apply Nat.div_small; lia). rewrite Nat.sub_0_r. reflexivity.
Qed.
Lemma rows_needed_spec N w k : (w > 0)%nat -> (k < rows_needed N w <-> k * w < N)%nat.
Proof.
  intros Hw. unfold rows_needed. destruct N as [|N].
  - replace ((0 + w - 1) / w)%nat with 0%nat by (symmetry; apply Nat.div_small; lia). nia.
  - replace (S N + w - 1)%nat with (N + 1 * w)%nat by lia. rewrite Nat.div_add by lia.
    assert (D := Nat.div_mod N w ltac:(lia)). assert (Hr := Nat.mod_upper_bound N w ltac:(lia)). nia.
Qed.
Lemma Forall2_nth {A B} (P : A -> B -> Prop) xs ys : Forall2 P xs ys <->
  length ys = length xs /\ forall k a b, nth_error xs k = Some a -> nth_error ys k = Some b -> P a b.
Proof.
  split.
  - intros F. induction F as [|a b xs ys H F [IH1 IH2]]; [split; [reflexivity|intros [|k]; discriminate]|].
    split; [cbn; congruence|]. intros [|k] x y Hx Hy; cbn in Hx, Hy; [congruence|eauto].
  - revert ys. induction xs as [|x xs IH]; intros [|y ys] [HL H]; try discriminate; constructor.
    + exact (H 0%nat x y eq_refl eq_refl).
    + apply IH. split; [cbn in HL; congruence|]. intros k a b Ha Hb. exact (H (S k) a b Ha Hb).
Qed.
Lemma nth_error_seq0 n k : (k < n)%nat -> nth_error (seq 0 n) k = Some k.
Proof. intros H. rewrite (nth_error_nth' _ 0%nat) by (rewrite seq_length; exact H). rewrite seq_nth by exact H. reflexivity. Qed.
Lemma rows_of_iff e dt s N w rows : (w > 0)%nat ->
  Forall2 (fun q row => log_row e (s (S (q - 0))) (INR q * dt) row) (logged w 0 N) rows <-> rows_of e dt s N w rows.
Proof.
  intros Hw. rewrite logged_grid by exact Hw. rewrite Forall2_nth, map_length, seq_length. unfold rows_of.
  split; intros [HL H]; split; try exact HL.
  - intros k row Hk. assert (Hlt : (k < rows_needed N w)%nat) by (rewrite <- HL; apply nth_error_Some; congruence).
    specialize (H k (k * w)%nat row). rewrite Nat.sub_0_r in H. apply H; [|exact Hk].
    rewrite nth_error_map, nth_error_seq0 by exact Hlt. reflexivity.
  - intros k q row Hq Hk. assert (Hlt : (k < rows_needed N w)%nat) by (rewrite <- HL; apply nth_error_Some; congruence).
    rewrite nth_error_map, nth_error_seq0 in Hq by exact Hlt. injection Hq as <-. rewrite Nat.sub_0_r. apply H. exact Hk.
Qed.
Lemma col_push_rows rows g key : col key (push_rows rows g) = (col key g ++ flat_map (values key) rows)%list.
Proof.
  revert g. induction rows as [|row rows IH]; intros g; [cbn; rewrite app_nil_r; reflexivity|].
  cbn [push_rows fold_left flat_map]. fold (push_rows rows (push_all row g)). rewrite IH, col_push_all, app_assoc. reflexivity.
Qed.
Lemma to_unsigned_iff x n : to_unsigned x = Ok n <-> IntegerPart x n /\ x < 4294967296.
Proof.
  unfold to_unsigned, IntegerPart. destruct (Rlt_dec (-1) x) as [H1|H1].
  - destruct (Rlt_dec x 4294967296) as [H2|H2].
    + assert (EX : exists k, (INR k <= x < INR k + 1 \/ -1 < x < 0 /\ k = 0%nat) /\ Z.to_nat (ztrunc x) = k).
      { destruct (Rle_dec 0 x) as [H0|H0].
        - destruct (base_Int_part x) as [B1 B2]. set (z := Int_part x) in *.
          assert (0 <= z)%Z. { destruct (Z_le_gt_dec 0 z) as [|G]; [assumption|exfalso]. assert (IZR z <= -1) by (apply IZR_le; lia). lra. }
          exists (Z.to_nat z). rewrite INR_IZR_INZ, Z2Nat.id by lia. split; [left; lra|].
          rewrite (ztrunc_nonneg x z); [reflexivity|lia|lra].
        - exists 0%nat. split; [right; split; [lra|reflexivity]|]. unfold ztrunc. destruct (Rle_dec 0 x); [contradiction|].
          rewrite (Int_part_unique (- x) 0); [reflexivity|cbn; lra]. }
      destruct EX as (k & Hk & ->). split.
      * intros E. injection E as <-. split; [exact Hk|exact H2].
      * intros [Hn _]. f_equal. destruct Hk as [Hk|[Hk ->]], Hn as [Hn|[Hn ->]].
        -- assert (A : (k < S n)%nat) by (apply INR_lt; rewrite S_INR; lra).
           assert (B : (n < S k)%nat) by (apply INR_lt; rewrite S_INR; lra). lia.
        -- assert (X := pos_INR k). lra.
        -- assert (X := pos_INR n). lra.
        -- reflexivity.
    + split; [discriminate|]. intros [_ H]. lra.
  - split; [discriminate|]. intros [[H|[H _]] _]; [assert (X := pos_INR n); lra|lra].
Qed.

(** ** runSimulation *)
Lemma run_sound T dt wf e mode j j' : runSimulation T dt wf e mode j = (j', Ok tt) ->
  exists N w j0 r used s rows, step_counts T dt wf N w /\ selects mode N j j0 r used /\
    run_effect e dt r j0 j' N w s rows.
Proof.
  unfold runSimulation, step_counts. destruct (Rlt_dec wf dt) as [H|H]; [discriminate|]. intros E.
  apply bind_inv in E. destruct E as (j1 & q1 & E1 & E). apply lift_inv in E1. destruct E1 as [-> E1].
  apply bind_inv in E. destruct E as (j1 & N & E2 & E). apply lift_inv in E2. destruct E2 as [-> E2].
  apply bind_inv in E. destruct E as (j1 & q2 & E3 & E). apply lift_inv in E3. destruct E3 as [-> E3].
  apply bind_inv in E. destruct E as (j1 & w & E4 & E). apply lift_inv in E4. destruct E4 as [-> E4].
  apply bind_inv in E. destruct E as (j0 & [r used] & E5 & E). cbn [fst] in E.
  apply fdiv_inv in E1, E3. destruct E1 as [Hd ->]. destruct E3 as [_ ->].
  apply to_unsigned_iff in E2, E4. apply getSolver_iff in E5.
  apply sim_sound in E. destruct E as (s & rows & Hs0 & Hst & Hw & HF & Hj').
  exists N, w, j0, r, used, s, rows. split.
  { split; [lra|]. split; [exact Hd|]. split; [apply E2|]. split; [apply E4|]. split; [apply E2|apply E4]. }
  split; [exact E5|]. split; [exact Hs0|]. split; [exact Hst|]. split; [exact Hw|]. split; [|split].
  - destruct Hw as [->|Hw].
    + inversion HF; subst. split.
      * unfold rows_needed. cbn [length]. destruct w; [reflexivity|]. symmetry. apply Nat.div_small. lia.
      * intros [|k]; discriminate.
    + apply rows_of_iff; [exact Hw|exact HF].
  - rewrite Hj' at 1. subst j'. reflexivity.
  - intros key. rewrite Hj'. cbn [j_log set_j_log]. apply col_push_rows.
Qed.
Lemma run_complete T dt wf e mode j N w j0 r used s : 
  step_counts T dt wf N w -> selects mode N j j0 r used -> (w > 0)%nat ->
  (j_mode j = MR_STRIP -> strip_sized j) ->
  s 0%nat = j0 -> trajectory r dt s N ->
  (forall k, (k < rows_needed N w)%nat -> exists row, log_row e (s (S (k * w))) (INR (k * w) * dt) row) ->
  exists j', runSimulation T dt wf e mode j = (j', Ok tt).
Proof.
  intros (H1 & H2 & H3 & H4 & H5 & H6) HS Hw HZ Hs0 Htr Hrow. unfold runSimulation.
  destruct (Rlt_dec wf dt) as [H|_]; [lra|].
  unfold bind at 1, lift at 1. rewrite fdiv_ok by exact H2. unfold bind at 1, lift at 1.
  rewrite (proj2 (to_unsigned_iff (T / dt) N)) by auto.
  unfold bind at 1, lift at 1. rewrite fdiv_ok by exact H2. unfold bind at 1, lift at 1.
  rewrite (proj2 (to_unsigned_iff (wf / dt) w)) by auto. unfold bind at 1.
  rewrite (proj2 (getSolver_iff _ _ _ _ _ _) HS). cbn [fst].
  apply (sim_complete r dt w e Hw N 0 j0 s); auto.
  - destruct HS as (_ & -> & _). unfold strip_sized, layerNo in *. cbn [j_mode j_layers set_j_layers j_Rx0 j_Ry0 j_AMR_X j_AMR_Y j_SMR_X j_SMR_Y j_AHE].
    rewrite map_length. exact HZ.
  - intros q Hq. rewrite logged_grid in Hq by exact Hw. apply in_map_iff in Hq. destruct Hq as (k & <- & Hk).
    apply in_seq in Hk. rewrite Nat.sub_0_r. apply Hrow. lia.
Qed.
