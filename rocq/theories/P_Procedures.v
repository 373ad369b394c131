(** Setting up, running and reading a junction in the measurement procedures. *)
From Verif Require Export S_Procedures P_RunProps P_Resist P_Ctor P_Spectrum.
From Verif Require P_Rot P_Compute P_NoiseBuf.
From Coq Require Import List.
Open Scope R_scope.
Open Scope st_scope.

(** ** Setters *)
Lemma all_loop g ls : setter_loop "all" (modify g) ls = (map g ls, Ok (match ls with [] => false | _ => true end)).
Proof.
  induction ls as [|l ls IH]; [reflexivity|]. cbn [setter_loop map]. rewrite Bool.orb_true_r. unfold modify at 1. rewrite IH. destruct ls; reflexivity.
Qed.
Lemma all_setter g j : j_layers j <> [] -> layerSetter "all" (modify g) j = (set_j_layers (map g (j_layers j)) j, Ok tt).
Proof. intros H. unfold layerSetter. rewrite all_loop. destruct (j_layers j); [contradiction|reflexivity]. Qed.
Lemma all_setter_empty g j : j_layers j = [] -> exists e, layerSetter "all" (modify g) j = (j, Err e).
Proof. intros H. unfold layerSetter. rewrite H. cbn. eexists. f_equal. destruct j; cbn in *; subst; reflexivity. Qed.
Lemma one_loop id f pre l post : ~ In id (map l_id pre) -> ~ In id (map l_id post) -> id <> "all"%string -> l_id l = id ->
  setter_loop id f (pre ++ l :: post) =
  match f l with (l', Err e) => ((pre ++ l' :: post)%list, Err e) | (l', Ok _) => ((pre ++ l' :: post)%list, Ok true) end.
Proof.
  intros Hp Hq Ha Hl.
  assert (Hpost : setter_loop id f post = (post, Ok false)).
  { clear Hp Hl. induction post as [|k post IH]; [reflexivity|]. cbn [setter_loop]. destruct (String.eqb_spec (l_id k) id) as [E|_]; [exfalso; apply Hq; left; exact E|].
    destruct (String.eqb_spec id "all") as [E|_]; [contradiction|]. cbn [orb]. rewrite IH; [reflexivity|]. intros X. apply Hq. right. exact X. }
  induction pre as [|k pre IH]; cbn [app setter_loop].
  - rewrite Hl, String.eqb_refl. cbn [orb]. rewrite Hpost. destruct (f l) as [l' [u|e]]; reflexivity.
  - destruct (String.eqb_spec (l_id k) id) as [E|_]; [exfalso; apply Hp; left; exact E|].
    destruct (String.eqb_spec id "all") as [E|_]; [contradiction|]. cbn [orb]. rewrite IH by (intros X; apply Hp; right; exact X).
    destruct (f l) as [l' [u|e]]; reflexivity.
Qed.
Lemma find_pre pre l post : ~ In (l_id l) (map l_id pre) -> find_layer (l_id l) (pre ++ l :: post) = Some l.
Proof.
  induction pre as [|k pre IH]; intros H; cbn [app find_layer].
  - rewrite String.eqb_refl. reflexivity.
  - destruct (String.eqb_spec (l_id k) (l_id l)) as [E|_]; [exfalso; apply H; left; exact E|]. apply IH. intros X. apply H. right. exact X.
Qed.
Lemma setMag_normalised v l : setMagnetisation (vnormalize v) l =
  if Req_EM_T (Norm v) 0 then (l, Err (Throw "Initial magnetisation was set to a zero vector!")) else (set_l_mag (Scal (/ Norm v) v) l, Ok tt).
Proof.
  unfold setMagnetisation. rewrite vlength_Norm. destruct (Req_EM_T (Norm v) 0) as [E|E].
  - apply Norm_zero_iff in E. subst v. rewrite vnormalize_zero. destruct (Req_EM_T (Norm Zero) 0) as [_|N]; [reflexivity|]. exfalso. apply N, Norm_zero_iff. reflexivity.
  - assert (NZ : v <> Zero) by (intros ->; apply E, Norm_zero_iff; reflexivity).
    pose proof (vnormalize_unit v NZ) as U. destruct (Req_EM_T (Norm (vnormalize v)) 0) as [X|_].
    + exfalso. apply Norm_zero_iff in X. rewrite X in U. unfold Unit, Norm2, Dot, Zero in U. cbn in U. lra.
    + unfold bind, modify. cbn. f_equal. change (l_mag (set_l_mag (vnormalize v) l)) with (vnormalize v).
      rewrite vnormalize_idem, <- vnormalize_nonzero by exact NZ. reflexivity.
Qed.
Definition kick (rnd : nat -> R) (d : R) (p : nat) (m : cvec) : cvec := Plus m (Scal d (CV (rnd p) (rnd (p + 1)%nat) (rnd (p + 2)%nat))).
Lemma disturb_step rnd d pre l post j pos : NoDup (map l_id (pre ++ l :: post)) -> ~ In "all"%string (map l_id (pre ++ l :: post)) ->
  j_layers j = (pre ++ l :: post)%list -> forall st,
  disturb rnd d (map l_id (l :: post)) (j, pos) = (st, Ok tt) <->
  0 <= d /\ kick rnd d pos (l_mag l) <> Zero /\
  let v := kick rnd d pos (l_mag l) in
  disturb rnd d (map l_id post) (set_j_layers (pre ++ set_l_mag (Scal (/ Norm v) v) l :: post)%list j, (pos + 3)%nat) = (st, Ok tt).
Proof.
  intros ND NA E st. cbn [map disturb].
  rewrite map_app in ND, NA. cbn [map] in ND, NA.
  assert (N1 : ~ In (l_id l) (map l_id pre)) by (intros X; apply (NoDup_remove_2 _ _ _ ND), in_or_app; left; exact X).
  assert (N2 : ~ In (l_id l) (map l_id post)) by (intros X; apply (NoDup_remove_2 _ _ _ ND), in_or_app; right; exact X).
  assert (N3 : l_id l <> "all"%string) by (intros X; apply NA, in_or_app; right; left; exact X).
  unfold bind at 1, get. unfold bind at 1, lift. cbn [fst snd]. unfold getLayerMagnetisation, getLayer. rewrite E, find_pre by exact N1. cbn [rbind].
  destruct (Rlt_dec d 0) as [Hd|Hd].
  - unfold bind, fail. split; [discriminate|]. intros (H & _). lra.
  - unfold bind at 1 2, modify. cbn [fst snd]. unfold on_junction at 1, setLayerMagnetisation, layerSetter. cbn [fst snd].
    rewrite E, (one_loop (l_id l) _ pre l post N1 N2 N3 eq_refl), setMag_normalised.
    replace (CV (cx (l_mag l) + d * rnd pos) (cy (l_mag l) + d * rnd (pos + 1)%nat) (cz (l_mag l) + d * rnd (pos + 2)%nat)) with (kick rnd d pos (l_mag l)) by (unfold kick; destruct (l_mag l); reflexivity).
    destruct (Req_EM_T (Norm (kick rnd d pos (l_mag l))) 0) as [Z|Z].
    + split; [discriminate|]. intros (_ & H & _). exfalso. apply H, Norm_zero_iff, Z.
    + cbn [fst snd]. split.
      * intros H. split; [lra|]. split; [intros X; apply Z, Norm_zero_iff, X|]. exact H.
      * intros (_ & _ & H). exact H.
Qed.
Lemma disturb_iff rnd d : d <> 0 -> forall todo pre j pos j' pos', NoDup (map l_id (pre ++ todo)) -> ~ In "all"%string (map l_id (pre ++ todo)) ->
  j_layers j = (pre ++ todo)%list ->
  disturb rnd d (map l_id todo) (j, pos) = ((j', pos'), Ok tt) <->
  pos' = (pos + 3 * length todo)%nat /\ exists todo', j' = set_j_layers (pre ++ todo')%list j /\ length todo' = length todo /\
    forall p l l1, nth_error todo p = Some l -> nth_error todo' p = Some l1 -> exists m, kicked rnd d pos p (l_mag l) m /\ l1 = set_l_mag m l.
Proof.
  intros D. induction todo as [|l todo IH]; intros pre j pos j' pos' ND NA E.
  - cbn [map disturb]. unfold ret. split.
    + intros H. injection H as <- <-. split; [cbn; lia|]. exists []. split; [rewrite <- E; destruct j; reflexivity|]. split; [reflexivity|]. intros [|p]; discriminate.
    + intros (-> & [|x todo'] & -> & L & _); [|discriminate]. rewrite <- E. f_equal. f_equal; [destruct j; reflexivity|cbn; lia].
  - rewrite disturb_step with (pre := pre) by assumption. cbv zeta. set (v := kick rnd d pos (l_mag l)). set (l1 := set_l_mag (Scal (/ Norm v) v) l).
    assert (EQ : (pre ++ l1 :: todo)%list = ((pre ++ [l1]) ++ todo)%list) by (rewrite <- app_assoc; reflexivity).
    assert (ID : map l_id ((pre ++ [l1]) ++ todo) = map l_id (pre ++ l :: todo)) by (rewrite <- app_assoc, !map_app; reflexivity).
    rewrite EQ.
    assert (J : forall todo', set_j_layers ((pre ++ [l1]) ++ todo')%list (set_j_layers ((pre ++ [l1]) ++ todo)%list j) = set_j_layers (pre ++ l1 :: todo')%list j)
      by (intros todo'; rewrite <- app_assoc; reflexivity).
    rewrite (IH (pre ++ [l1])%list (set_j_layers ((pre ++ [l1]) ++ todo)%list j) (pos + 3)%nat j' pos') by (first [reflexivity | rewrite ID; assumption]).
    assert (KV : forall m, kicked rnd d pos 0 (l_mag l) m <-> 0 < d /\ v <> Zero /\ m = Scal (/ Norm v) v).
    { intros m. unfold kicked. cbn [Nat.mul]. rewrite Nat.add_0_r. change (Plus (l_mag l) _) with v. split; [intros (_ & H); exact (H D)|]. intros H. split; [contradiction|intros _; exact H]. }
    split.
    + intros (H0 & HV & -> & todo' & -> & L & H). split; [cbn; lia|]. exists (l1 :: todo'). split; [apply J|]. split; [cbn; congruence|].
      intros [|p] k k1 Hk Hk1.
      * cbn in Hk, Hk1. injection Hk as <-. injection Hk1 as <-. exists (Scal (/ Norm v) v). split; [|reflexivity]. apply KV. split; [lra|]. split; [exact HV|reflexivity].
      * cbn in Hk, Hk1. destruct (H p k k1 Hk Hk1) as (m & (K1 & K2) & Em). exists m. split; [|exact Em]. split; [contradiction|intros _].
        specialize (K2 D). replace (pos + 3 * S p)%nat with (pos + 3 + 3 * p)%nat by lia. exact K2.
    + intros (-> & todo' & -> & L & H). destruct todo' as [|x todo']; [discriminate|].
      destruct (H 0%nat l x eq_refl eq_refl) as (m & K & Ex). apply KV in K. destruct K as (D0 & HV & ->). fold l1 in Ex. subst x.
      split; [lra|]. split; [exact HV|]. split; [cbn; lia|]. exists todo'. split; [symmetry; apply J|]. split; [cbn in L; congruence|].
      intros p k k1 Hk Hk1. destruct (H (S p) k k1 Hk Hk1) as (m & (K1 & K2) & Em). exists m. split; [|exact Em]. split; [contradiction|intros _].
      specialize (K2 D). replace (pos + 3 * S p)%nat with (pos + 3 + 3 * p)%nat in K2 by lia. exact K2.
Qed.
Lemma keep_mag a b l : set_l_mag (l_mag l) (set_l_Oersted a (set_l_external b l)) = set_l_Oersted a (set_l_external b l).
Proof. destruct l; reflexivity. Qed.
Lemma measure_iff rnd H oe d T dt j pos j2 pos2 : NoDup (ids j) -> ~ In "all"%string (ids j) ->
  measure rnd H oe d (ids j) T dt (j, pos) = ((j2, pos2), Ok tt) <->
  exists j1, prepared_for rnd H oe d pos j j1 /\ runSimulation T dt dt false RK4 j1 = (j2, Ok tt) /\ pos2 = (pos + drawn d (layerNo j))%nat.
Proof.
  intros ND NA. unfold measure.
  unfold on_junction at 1, clearLog, modify. unfold bind at 1. cbn [fst snd].
  do 3 (unfold bind at 1, lift at 1, getConstantDriver at 1, mkScalarDriver at 1; cbn [update_eqb andb]).
  unfold bind at 1, on_junction at 1, setLayerExternalFieldDriver, setExternalFieldDriver. cbn [fst snd].
  set (jc := set_j_log [] 0 j).
  assert (CASE : j_layers j = [] \/ j_layers j <> []) by (destruct (j_layers j); [left; reflexivity|right; discriminate]).
  destruct CASE as [C|C].
  - destruct (all_setter_empty (set_l_external (mkAxial (DynScalar (SD constant (cx H) 0 (-1) 0 (-1) (-1) (-1) (-1) (-1) (-1))) (DynScalar (SD constant (cy H) 0 (-1) 0 (-1) (-1) (-1) (-1) (-1) (-1))) (DynScalar (SD constant (cz H) 0 (-1) 0 (-1) (-1) (-1) (-1) (-1) (-1))))) jc C) as [e Ee].
    rewrite Ee. split; [discriminate|]. intros (j1 & (X & _) & _). contradiction.
  - rewrite all_setter by exact C. cbn [j_layers set_j_log jc]. unfold bind at 1, on_junction at 1, setLayerOerstedFieldDriver, setOerstedFieldDriver. cbn [fst snd].
    rewrite all_setter by (cbn [j_layers set_j_layers]; intros X; apply map_eq_nil in X; contradiction). cbn [j_layers set_j_layers]. rewrite map_map.
    set (base := map (fun x => set_l_Oersted oe (set_l_external (mkAxial (DynScalar (SD constant (cx H) 0 (-1) 0 (-1) (-1) (-1) (-1) (-1) (-1))) (DynScalar (SD constant (cy H) 0 (-1) 0 (-1) (-1) (-1) (-1) (-1) (-1))) (DynScalar (SD constant (cz H) 0 (-1) 0 (-1) (-1) (-1) (-1) (-1) (-1)))) x)) (j_layers j)).
    assert (LB : length base = length (j_layers j)) by apply map_length.
    assert (NB : forall p l, nth_error (j_layers j) p = Some l -> nth_error base p = Some (set_l_Oersted oe (set_l_external (steady H) l))) by (intros p l E; unfold base; rewrite nth_error_map, E; reflexivity).
    match goal with |- context [set_j_layers base ?x] => set (jb := set_j_layers base x) end.
    assert (EJ : forall ls, set_j_layers ls jb = set_j_log [] 0 (set_j_layers ls j)) by reflexivity.
    assert (LJ : j_layers jb = base) by reflexivity.
    assert (IB : ids jb = ids j) by (unfold ids; rewrite LJ; unfold base; rewrite map_map; reflexivity).
    unfold drawn. destruct (Req_EM_T d 0) as [D|D].
    + unfold bind, ret, on_junction. cbn [fst snd]. split.
      * intros X. destruct (runSimulation T dt dt false RK4 jb) as [j' r] eqn:ER. injection X as -> -> ->. exists jb. split; [|split; [exact ER|lia]].
        split; [exact C|]. exists base. split; [apply EJ|]. split; [exact LB|]. intros p l l1 Hl Hl1. rewrite (NB p l Hl) in Hl1. injection Hl1 as <-.
        exists (l_mag l). split; [split; [reflexivity|contradiction]|]. destruct l; reflexivity.
      * intros (j1 & (_ & ls & -> & L & HP) & ER & ->). assert (EL : ls = base).
        { apply list_ext. intros p. destruct (nth_error (j_layers j) p) as [l|] eqn:Hl.
          - rewrite (NB p l Hl). destruct (nth_error ls p) as [l1|] eqn:Hl1; [|exfalso; apply nth_error_None in Hl1; assert (X : (p < length (j_layers j))%nat) by (apply nth_error_Some; congruence); lia].
            destruct (HP p l l1 Hl Hl1) as (m & (K & _) & ->). rewrite (K D), keep_mag. reflexivity.
          - assert (X := Hl). apply nth_error_None in X. transitivity (@None layer); [apply nth_error_None; lia|symmetry; apply nth_error_None; lia]. }
        subst ls. change (set_j_log [] 0 (set_j_layers base j)) with jb in ER. rewrite ER. rewrite Nat.add_0_r. reflexivity.
    + unfold bind. rewrite <- IB. unfold ids at 1. rewrite LJ.
      pose proof (disturb_iff rnd d D base [] jb pos) as DI. cbn [app] in DI.
      assert (ND' : NoDup (map l_id base)) by (change (NoDup (ids jb)); rewrite IB; exact ND).
      assert (NA' : ~ In "all"%string (map l_id base)) by (change (~ In "all"%string (ids jb)); rewrite IB; exact NA).
      assert (KK : forall ls, length ls = length (j_layers j) ->
        ((forall p l l1, nth_error base p = Some l -> nth_error ls p = Some l1 -> exists m, kicked rnd d pos p (l_mag l) m /\ l1 = set_l_mag m l) <->
         (forall p l l1, nth_error (j_layers j) p = Some l -> nth_error ls p = Some l1 -> exists m, kicked rnd d pos p (l_mag l) m /\ l1 = set_l_mag m (set_l_Oersted oe (set_l_external (steady H) l))))).
      { intros ls LL. split; intros HH p l l1 Hl Hl1.
        - exact (HH p _ l1 (NB p l Hl) Hl1).
        - assert (X : (p < length (j_layers j))%nat) by (rewrite <- LB; apply nth_error_Some; congruence).
          destruct (nth_error (j_layers j) p) as [k|] eqn:Hk; [|apply nth_error_None in Hk; lia]. rewrite (NB p k Hk) in Hl. injection Hl as <-. exact (HH p k l1 Hk Hl1). }
      split.
      * intros X. destruct (disturb rnd d (map l_id base) (jb, pos)) as [[jd posd] [u|e]] eqn:ED; [|discriminate]. destruct u.
        pose proof (proj1 (DI jd posd ND' NA' LJ) eq_refl) as DI'. destruct DI' as (-> & ls & -> & L & HP). unfold on_junction in X. cbn [fst snd] in X. rewrite EJ in X.
        destruct (runSimulation T dt dt false RK4 (set_j_log [] 0 (set_j_layers ls j))) as [j' r] eqn:ER. injection X as -> <- ->.
        exists (set_j_log [] 0 (set_j_layers ls j)). split; [|split; [exact ER|unfold layerNo; lia]]. split; [exact C|]. exists ls. split; [reflexivity|]. split; [congruence|].
        apply KK; [congruence|exact HP].
      * intros (j1 & (_ & ls & -> & L & HP) & ER & ->).
        assert (ED : disturb rnd d (map l_id base) (jb, pos) = ((set_j_layers ls jb, (pos + 3 * length base)%nat), Ok tt)).
        { apply (DI _ _ ND' NA' LJ). split; [reflexivity|]. exists ls. split; [reflexivity|]. split; [congruence|]. apply KK; [exact L|exact HP]. }
        rewrite ED. unfold on_junction. cbn [fst snd]. rewrite EJ, ER. unfold layerNo. rewrite LB. reflexivity.
Qed.

(** ** Reading the log of a fresh run *)
Lemma integer_part_one x n : IntegerPart x n -> x = 1 -> n = 1%nat.
Proof.
  intros [H|(H & _)] ->; [|lra]. destruct n as [|[|n]]; [cbn in H; lra|reflexivity|]. exfalso. rewrite !S_INR in H. pose proof (pos_INR n). lra.
Qed.
Lemma run_rows T dt e mode j j' : runSimulation T dt dt e mode j = (j', Ok tt) ->
  exists N s rows r used, step_counts T dt dt N 1 /\ selects mode N j (s 0%nat) r used /\ trajectory r dt s N /\ length rows = N /\
    (forall k row, nth_error rows k = Some row -> log_row e (s (S k)) (INR k * dt) row) /\
    j' = set_j_log (push_rows rows (j_log j)) (j_logLength j + N) (s N).
Proof.
  unfold runSimulation, step_counts. destruct (Rlt_dec dt dt) as [H|H]; [discriminate|]. intros E.
  apply bind_inv in E. destruct E as (j1 & q1 & E1 & E). apply lift_inv in E1. destruct E1 as [-> E1].
  apply bind_inv in E. destruct E as (j1 & N & E2 & E). apply lift_inv in E2. destruct E2 as [-> E2].
  apply bind_inv in E. destruct E as (j1 & q2 & E3 & E). apply lift_inv in E3. destruct E3 as [-> E3].
  apply bind_inv in E. destruct E as (j1 & w & E4 & E). apply lift_inv in E4. destruct E4 as [-> E4].
  apply bind_inv in E. destruct E as (j0 & [r used] & E5 & E). cbn [fst] in E.
  apply fdiv_inv in E1, E3. destruct E1 as [Hd ->]. destruct E3 as [_ ->].
  apply to_unsigned_iff in E2, E4. apply getSolver_iff in E5.
  assert (W : w = 1%nat) by (apply (integer_part_one (dt / dt)); [apply E4|field; exact Hd]). subst w.
  apply sim_sound in E. destruct E as (s & rows & Hs0 & Hst & _ & HF & Hj').
  apply rows_of_iff in HF; [|lia]. destruct HF as [L HF]. assert (RN : rows_needed N 1 = N) by (unfold rows_needed; rewrite Nat.div_1_r; lia). rewrite RN in L.
  exists N, s, rows, r, used. rewrite Hs0. split; [split; [lra|]; split; [exact Hd|]; split; [apply E2|]; split; [apply E4|]; split; [apply E2|apply E4]|].
  split; [exact E5|]. split; [exact Hst|]. split; [exact L|]. split; [intros k row Hk; specialize (HF k row Hk); rewrite Nat.mul_1_r in HF; exact HF|].
  destruct E5 as (_ & E5 & _). assert (X : j_log j0 = j_log j /\ j_logLength j0 = j_logLength j) by (rewrite E5; split; reflexivity). destruct X as [X1 X2].
  rewrite Hj', X1, X2, L. reflexivity.
Qed.
Lemma get_push_all key row : forall g, log_get key (push_all row g) = match values key row with [] => log_get key g | _ => Some (col key g ++ values key row)%list end.
Proof.
  induction row as [|[k v] row IH]; intros g; [reflexivity|]. unfold push_all in *. cbn [fold_left fst snd]. rewrite IH, P_Rot.get_push. unfold values. cbn [filter fst].
  destruct (String.eqb_spec k key) as [->|E].
  - cbn [map]. unfold col. rewrite P_Rot.get_push, String.eqb_refl. destruct (map snd (filter _ row)) eqn:EV.
    + destruct (log_get key g); [reflexivity|reflexivity].
    + destruct (log_get key g); [rewrite <- app_assoc|]; reflexivity.
  - unfold col. rewrite P_Rot.get_push. destruct (String.eqb_spec k key) as [X|_]; [contradiction|]. reflexivity.
Qed.
Lemma get_push_rows key rows : forall g, log_get key (push_rows rows g) = match flat_map (values key) rows with [] => log_get key g | _ => Some (col key g ++ flat_map (values key) rows)%list end.
Proof.
  induction rows as [|row rows IH]; intros g; [reflexivity|]. cbn [push_rows fold_left flat_map]. fold (push_rows rows (push_all row g)). rewrite IH, get_push_all, col_push_all.
  destruct (flat_map (values key) rows) eqn:EF.
  - rewrite app_nil_r. reflexivity.
  - destruct (values key row) eqn:EV; cbn [app]; [rewrite app_nil_r|rewrite <- app_assoc]; reflexivity.
Qed.
Lemma fresh_column key rows f N : length rows = N -> (forall k row, nth_error rows k = Some row -> values key row = [f k]) -> (0 < N)%nat ->
  log_get key (push_rows rows []) = Some (map f (seq 0 N)).
Proof.
  intros L H P. rewrite get_push_rows. assert (E : flat_map (values key) rows = map f (seq 0 N)).
  { apply flat_map_single; [rewrite map_length, seq_length; congruence|]. intros k row y Hr Hy.
    assert (K : (k < N)%nat) by (rewrite <- L; apply nth_error_Some; congruence). rewrite nth_error_map_seq in Hy by exact K. injection Hy as <-. exact (H k row Hr). }
  rewrite E. destruct N; [lia|reflexivity].
Qed.
Lemma fresh_none key rows : (forall k row, nth_error rows k = Some row -> values key row = []) -> log_get key (push_rows rows []) = None.
Proof.
  intros H. rewrite get_push_rows. assert (E : flat_map (values key) rows = []); [|rewrite E; reflexivity].
  induction rows as [|row rows IH]; [reflexivity|]. cbn. rewrite (H 0%nat row eq_refl). apply IH. intros k. exact (H (S k)).
Qed.
(** Everything the procedures read from a run of a junction with an empty log. *)
Lemma fresh_log T dt j1 j2 : named j1 -> j_log j1 = [] -> j_logLength j1 = 0%nat -> runSimulation T dt dt false RK4 j1 = (j2, Ok tt) ->
  exists N s, experiment T dt j1 j2 N s /\ shape j1 j2 /\ stepwise (fun _ l l' => static l l') (s 0%nat) (s N) /\
    (N = 0%nat -> j_log j2 = []) /\
    ((0 < N)%nat ->
      log_get "time" (j_log j2) = Some (map (fun k => INR k * dt) (seq 0 N)) /\
      (forall p l, nth_error (j_layers j1) p = Some l ->
        log_get (colname (l_id l) "mx") (j_log j2) = Some (map cx (samples s N p)) /\
        log_get (colname (l_id l) "my") (j_log j2) = Some (map cy (samples s N p)) /\
        log_get (colname (l_id l) "mz") (j_log j2) = Some (map cz (samples s N p)))) /\
    (forall key, us key = 0%nat -> key <> "time"%string -> key <> "R"%string -> key <> "Rx"%string -> key <> "Ry"%string -> key <> "Rz"%string ->
       log_get key (j_log j2) = None) /\
    (forall l0 l1, (0 < N)%nat -> j_layers j1 = [l0; l1] -> 
       log_get ("R_" ++ l_id l0 ++ "_" ++ l_id l1)%string (j_log j2) =
       match j_mode j1 with MR_CLASSIC => Some (map (fun k => GMR (j_Rp j1) (j_Rap j1) (Dot (sample_of s 0 k) (sample_of s 1 k))) (seq 0 N)) | _ => None end).
Proof.
  intros NM E0 E1 E. assert (ER := E). apply run_rows in E. destruct E as (N & s & rows & r & used & HC & HS & HT & L & HR & Ej).
  rewrite E0, E1 in Ej. exists N, s.
  assert (ST : forall k, (k <= N)%nat -> stepwise (fun _ l l' => static l l') (s 0%nat) (s k)) by (intros k Hk; exact (traj_static r dt s N k HT Hk)).
  assert (SH : forall k, (k <= N)%nat -> shape j1 (s k)).
  { intros k Hk. eapply shape_trans; [exact (selects_shape _ _ _ _ _ _ HS)|]. apply stepwise_shape, ST, Hk. }
  assert (HK : forall k row, nth_error rows k = Some row -> (k < N)%nat) by (intros k row Hk; rewrite <- L; apply nth_error_Some; congruence).
  assert (NS : forall k, (k <= N)%nat -> named (s k)) by (intros k Hk; exact (named_shape _ _ (SH k Hk) NM)).
  assert (AT : forall p l k, nth_error (j_layers j1) p = Some l -> (k <= N)%nat -> exists lk, nth_error (j_layers (s k)) p = Some lk /\ l_id lk = l_id l).
  { intros p l k Hl Hk. pose proof (layer_at_static RK4 N j1 (s 0%nat) r used dt s p l k HS eq_refl HT Hl Hk) as (A & B). exists (layer_at s p k l). split; [exact A|].
    destruct (static_fields _ _ B) as (X & _). rewrite X. apply prepared_id. }
  assert (GL : j_log j2 = push_rows rows []) by (rewrite Ej; reflexivity).
  assert (SC : forall k, (k <= N)%nat -> j_Rp (s k) = j_Rp j1 /\ j_Rap (s k) = j_Rap j1).
  { intros k Hk. destruct (ST k Hk) as (X & _). rewrite X. destruct HS as (_ & Y & _). rewrite Y. split; reflexivity. }
  split; [split; [exact ER|]; split; [exact HC|]; exists r, used; split; [exact HS|]; split; [exact HT|]; rewrite Ej; reflexivity|].
  split; [eapply shape_trans; [exact (SH N (le_n N))|]; rewrite Ej; apply shape_log|].
  split; [exact (ST N (le_n N))|].
  split; [intros Z; rewrite GL; destruct rows; [reflexivity|cbn in L; lia]|].
  split; [|split].
  - intros P. rewrite GL. split.
    + apply fresh_column; [exact L| |exact P]. intros k row Hr. destruct (NS (S k) (HK k row Hr)) as (A & B & _). exact (values_time false _ _ _ A B (HR k row Hr)).
    + intros p l Hl.
      assert (V : forall k row U, nth_error rows k = Some row -> us U = 0%nat -> exists lk, nth_error (j_layers (s (S k))) p = Some lk /\ values (colname (l_id l) U) row = values U (tag_row false lk)).
      { intros k row U Hr HU. destruct (AT p l (S k) Hl (HK k row Hr)) as (lk & Hlk & Hid). exists lk. split; [exact Hlk|].
        destruct (NS (S k) (HK k row Hr)) as (A & B & C). rewrite <- Hid. exact (values_layer false _ _ _ p lk U A B C Hlk HU (HR k row Hr)). }
      assert (SM : forall k lk, nth_error (j_layers (s (S k))) p = Some lk -> sample_of s p k = l_mag lk).
      { intros k lk Hlk. unfold sample_of, mags. apply nth_error_nth. rewrite nth_error_map, Hlk. reflexivity. }
      unfold samples. rewrite !map_map.
      split; [|split]; (apply fresh_column; [exact L| |exact P]); intros k row Hr.
      * destruct (V k row "mx"%string Hr eq_refl) as (lk & Hlk & ->). rewrite (SM k lk Hlk). apply values_m.
      * destruct (V k row "my"%string Hr eq_refl) as (lk & Hlk & ->). rewrite (SM k lk Hlk). apply values_m.
      * destruct (V k row "mz"%string Hr eq_refl) as (lk & Hlk & ->). rewrite (SM k lk Hlk). apply values_m.
  - intros key U N1 N2 N3 N4 N5. rewrite GL. apply fresh_none. intros k row Hr. pose proof (HR k row Hr) as HL. apply values_none.
    rewrite (row_keys_of false _ _ _ eq_refl HL). unfold row_keys. intros X. apply in_app_or in X. destruct X as [X|X].
    + apply mkeys_colname in X. destruct X as (l & U' & _ & _ & ->). rewrite us_colname in U. lia.
    + apply in_app_or in X. destruct X as [X|[X|[]]]; [|congruence].
      destruct (NS (S k) (HK k row Hr)) as (A & _). destruct (j_mode (s (S k))) eqn:EM; [destruct X| |].
      * destruct (j_layers (s (S k))) as [|a [|b rest]] eqn:EL; [destruct X|destruct X as [X|[]]; congruence|].
        destruct X as [X|[]]. pose proof (Rtag_us _ _ _ _ A EM EL) as Y. rewrite X in Y. lia.
      * destruct X as [X|[X|[X|[]]]]; congruence.
  - intros l0 l1 P EL. rewrite GL.
    assert (LS : forall k, (k <= N)%nat -> exists a b, j_layers (s k) = [a; b] /\ l_id a = l_id l0 /\ l_id b = l_id l1 /\ j_mode (s k) = j_mode j1).
    { intros k Hk. destruct (SH k Hk) as (I & M & _). unfold ids in I. rewrite EL in I. destruct (j_layers (s k)) as [|a [|b [|c x]]]; try discriminate.
      cbn in I. injection I as I1 I2. exists a, b. repeat split; congruence. }
    assert (KEY : forall k row, nth_error rows k = Some row -> exists a b, j_layers (s (S k)) = [a; b] /\ 
       values ("R_" ++ l_id l0 ++ "_" ++ l_id l1)%string row = match j_mode j1 with MR_CLASSIC => [GMR (j_Rp j1) (j_Rap j1) (Dot (l_mag a) (l_mag b))] | _ => [] end).
    { intros k row Hr. destruct (LS (S k) (HK k row Hr)) as (a & b & LL & Ia & Ib & M). exists a, b. split; [exact LL|].
      destruct (NS (S k) (HK k row Hr)) as (A & B & C). destruct (SC (S k) (HK k row Hr)) as (Rp & Rap). pose proof (HR k row Hr) as (rr & HRR & ->).
      assert (U : us ("R_" ++ l_id l0 ++ "_" ++ l_id l1) = (2 + us (l_id l0) + us (l_id l1))%nat) by (rewrite !us_app; cbn; lia).
      assert (NL : ~ In ("R_" ++ l_id l0 ++ "_" ++ l_id l1)%string (map fst (flat_map (layer_row false) (j_layers (s (S k)))))).
      { rewrite LL. intros X. apply layers_keys_us in X. destruct X as (l & U' & Hl & HU & X). rewrite X, us_colname in U.
        destruct Hl as [<-|[<-|[]]]; [rewrite Ia in U|rewrite Ib in U]; lia. }
      rewrite !values_app, (values_none _ _ NL). cbn [app].
      assert (NT : values ("R_" ++ l_id l0 ++ "_" ++ l_id l1)%string [("time"%string, INR k * dt)] = []).
      { apply values_none. intros [X|[]]. cbn [fst] in X. rewrite <- X in U. cbn in U. lia. }
      rewrite NT, app_nil_r. unfold resistance_row in HRR. rewrite M, LL in HRR. destruct (j_mode j1) eqn:EM.
      - rewrite HRR. reflexivity.
      - rewrite HRR. unfold tag_ok in A. rewrite LL in A. rewrite M in A. rewrite (A eq_refl), Ia, Ib. unfold values. cbn [filter fst]. rewrite String.eqb_refl. cbn [map snd]. rewrite Rp, Rap. reflexivity.
      - destruct HRR as (rx & ry & _ & _ & ->). apply values_none. cbn [map fst]. intros X.
        destruct X as [X|[X|[X|[]]]]; rewrite <- X in U; cbn in U; lia. }
    destruct (j_mode j1) eqn:EM.
    + apply fresh_none. intros k row Hr. destruct (KEY k row Hr) as (a & b & _ & ->). reflexivity.
    + apply fresh_column; [exact L| |exact P]. intros k row Hr. destruct (KEY k row Hr) as (a & b & LL & ->). unfold sample_of. rewrite LL. reflexivity.
    + apply fresh_none. intros k row Hr. destruct (KEY k row Hr) as (a & b & _ & ->). reflexivity.
Qed.
