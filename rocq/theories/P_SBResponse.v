(** Proofs about the linearised response, construction, solution and field scan of the Smit-Beljers solver. *)
From Verif Require Export S_SB.
From Verif Require Import P_Sym P_Resist P_Vec P_SB P_SBDescent P_SBMotion.
From Coq Require Import Psatz FunctionalExtensionality Permutation.
From Coq Require String.
Open Scope R_scope.
Open Scope st_scope.

(** ** Linearised equations *)
Definition pick (x : nat) (f : sexpr * sexpr) : sexpr := if Nat.eqb x 0 then fst f else snd f.
Definition A_cell (s : solver) (rhs : nat -> sexpr * sexpr) (af : nat -> R) (omega : sexpr) (i x j y : nat) : sexpr * sexpr :=
  (A_entry (pick x (rhs i)) (ang (fun i => sb_theta (the_layer s i)) (fun i => sb_phi (the_layer s i)) j y) (af i),
   if Nat.eqb i j && Nat.eqb x y then EAdd (ENum 0) (EMul (ENum (af i)) omega) else ENum 0).
Lemma A_pair_cell s rhs af omega i j h a x b y : (x < 2)%nat -> (y < 2)%nat ->
  A_pair s rhs af omega i h j (2 * a + x)%nat (2 * b + y)%nat = if Nat.eqb a i && Nat.eqb b j then A_cell s rhs af omega i x j y else h (2 * a + x)%nat (2 * b + y)%nat.
Proof.
  intros Hx Hy. unfold A_pair, put.
  assert (B : forall a x i, (x < 2)%nat -> Nat.eqb (2 * a + x) (2 * i) = Nat.eqb a i && Nat.eqb x 0).
  { intros. rewrite <- (Nat.add_0_r (2 * i0)). apply eqb_bit; lia. }
  assert (B' : forall a i u, (u < 2)%nat -> Nat.eqb (2 * a) (2 * i + u) = Nat.eqb a i && Nat.eqb 0 u).
  { intros. rewrite <- (Nat.add_0_r (2 * a0)) at 1. apply eqb_bit; lia. }
  assert (Cx : x = 0%nat \/ x = 1%nat) by lia. assert (Cy : y = 0%nat \/ y = 1%nat) by lia. unfold A_cell, ang, pick.
  destruct (Nat.eqb_spec i j) as [->|Hij].
  - rewrite !B, ?B', !eqb_bit by lia. rewrite ?Nat.eqb_refl.
    destruct Cx as [-> | ->]; destruct Cy as [-> | ->]; cbn [Nat.eqb]; rewrite ?andb_true_r, ?andb_false_r, ?Nat.eqb_refl; cbn [andb];
      destruct (Nat.eqb_spec a j), (Nat.eqb_spec b j); cbn [andb]; subst; try reflexivity; try (exfalso; congruence).
  - rewrite !B, !eqb_bit by lia.
    destruct Cx as [-> | ->]; destruct Cy as [-> | ->]; cbn [Nat.eqb]; rewrite ?andb_true_r, ?andb_false_r; cbn [andb];
      destruct (Nat.eqb_spec a i), (Nat.eqb_spec b j); cbn [andb]; subst; try reflexivity; try (exfalso; congruence).
Qed.
Lemma A_loop_cell s rhs af omega n a x b y : (a < n)%nat -> (b < n)%nat -> (x < 2)%nat -> (y < 2)%nat ->
  fold_left (fun h i => fold_left (A_pair s rhs af omega i) (seq 0 n) h) (seq 0 n) (fun _ _ => real (ENum 0)) (2 * a + x)%nat (2 * b + y)%nat = A_cell s rhs af omega a x b y.
Proof.
  intros Ha Hb Hx Hy. change (fun h i => fold_left (A_pair s rhs af omega i) (seq 0 n) h) with (fun h i => fold_left (fun h j => (fun i j h => A_pair s rhs af omega i h j) i j h) ((fun _ => seq 0 n) i) h).
  rewrite fold_nested.
  refine (fold_local (fun p h => A_pair s rhs af omega (fst p) h (snd p)) (fun p => Nat.eqb a (fst p) && Nat.eqb b (snd p)) (fun p => A_cell s rhs af omega (fst p) x (snd p) y)
    (fun v => v = A_cell s rhs af omega a x b y) _ _ _ _ _ _ _).
  - intros [i j] h _. cbn [fst snd]. apply A_pair_cell; assumption.
  - intros [i j] _. cbn [fst snd]. intros H. apply andb_true_iff in H. destruct H as [H1 H2]. apply Nat.eqb_eq in H1, H2. subst. reflexivity.
  - left. exists (a, b). cbn [fst snd]. rewrite !Nat.eqb_refl. split; [|reflexivity]. apply in_flat_map. exists a. split; [apply in_seq; lia|]. apply in_map, in_seq. lia.
Qed.
Lemma A_V_spec s var h frequency A V : steady h -> compute_A_and_V s var h frequency = Ok (A, V) ->
  let n := (2 * length (sv_layers s))%nat in
  exists F, motion s (fun rho => field_at rho h) true F /\ length V = n /\
  forall r rho, (r < n)%nat -> regular s rho -> partial (F r) rho var (eval rho (nth r V (ENum 0))) /\
    forall c, (c < n)%nat -> exists j, partial (F r) rho (angle s c) j /\
      eval rho (fst (A r c)) = - (1 + square (damping s (r / 2))) * j /\
      eval rho (snd (A r c)) = if Nat.eqb r c then (1 + square (damping s (r / 2))) * drive frequency rho else 0.
Proof.
  intros Hs H. unfold compute_A_and_V in H. apply rbind_iff in H. destruct H as [U [HU H]]. apply rbind_iff in H. destruct H as [fns [Hf H]].
  assert (HA := f_equal (fun r => match r with Ok p => fst p | Err _ => A end) H). assert (HV := f_equal (fun r => match r with Ok p => snd p | Err _ => V end) H). cbn [fst snd] in HA, HV. clear H. subst A V. cbv zeta.
  destruct (solver_motion s h true U fns Hs HU Hf) as [M D]. apply rhs_list_iff in Hf. destruct Hf as [L Hf].
  exists (fun k rho => eval rho (equation fns k)). split; [exact M|].
  assert (EV : flat_map (fun f : sexpr * sexpr => [diff (fst f) var; diff (snd f) var]) fns = map (fun e => diff e var) (equations fns)).
  { unfold equations. clear. induction fns as [|f fns IH]; [reflexivity|]. cbn. rewrite IH. reflexivity. }
  rewrite EV, map_length, equations_len, L. split; [reflexivity|]. intros r rho Hr Hreg. split.
  - rewrite (nth_error_nth _ _ (ENum 0) (map_nth_error (fun e => diff e var) _ _ (nth_error_nth' (equations fns) (ENum 0) (n := r) ltac:(rewrite equations_len, L; exact Hr)))).
    apply diff_partial, D; assumption.
  - intros c Hc. exists (eval rho (diff (equation fns r) (angle s c))). split; [apply diff_partial, D; assumption|].
    assert (Sp : forall k, (k < 2 * length (sv_layers s))%nat -> exists a x, k = (2 * a + x)%nat /\ (x < 2)%nat /\ (a < length (sv_layers s))%nat).
    { intros k Hk. exists (k / 2)%nat, (k mod 2)%nat. pose proof (Nat.div_mod_eq k 2). pose proof (Nat.mod_upper_bound k 2). lia. }
    destruct (Sp r Hr) as (a & x & -> & Hx & Ha). destruct (Sp c Hc) as (b & y & -> & Hy & Hb).
    rewrite A_loop_cell by assumption. unfold A_cell. cbn [fst snd].
    assert (Ed : equation fns (2 * a + x) = pick x (nth a fns (ENum 0, ENum 0))).
    { unfold pick. assert (Cx : x = 0%nat \/ x = 1%nat) by lia. destruct Cx as [-> | ->]; cbn [Nat.eqb]; [rewrite Nat.add_0_r; apply equation_even|apply equation_odd]. }
    assert (Dv : ((2 * a + x) / 2 = a)%nat) by (rewrite Nat.mul_comm, Nat.div_add_l by lia; rewrite Nat.div_small by lia; lia). rewrite Dv.
    destruct (Hf a _ (layer_nth s a Ha)) as (d & Hd & _). unfold damping. rewrite Hd. rewrite eqb_bit by assumption.
    assert (An : angle s (2 * b + y) = ang (fun i => sb_theta (the_layer s i)) (fun i => sb_phi (the_layer s i)) b y) by (unfold angle; rewrite coordinate_bit by assumption; reflexivity).
    split.
    + unfold A_entry, ENeg. cbn [eval]. rewrite <- An, <- Ed. unfold square. ring.
    + destruct (Nat.eqb a b && Nat.eqb x y); [|reflexivity]. cbn [eval]. unfold square, drive. destruct frequency; cbn [eval]; ring.
Qed.
Lemma A_V_ok s var h f : (exists r, compute_A_and_V s var h f = Ok r) <-> forall l, In l (sv_layers s) -> sb_dyn l <> None.
Proof.
  unfold compute_A_and_V. destruct (proj2 (energy_ok s (Some h) false) ltac:(left; discriminate)) as [U HU]. rewrite HU. cbn [rbind]. split.
  - intros [r H]. apply rbind_iff in H. destruct H as [fns [H _]]. apply rhs_list_iff in H. destruct H as [_ H]. intros l Hl. apply In_nth_error in Hl. destruct Hl as [i Hi]. destruct (H i l Hi) as (d & Hd & _). congruence.
  - intros H. enough (exists fns, all_ok (map (layer_rhs U true) (sv_layers s)) = Ok fns) as [fns Hf] by (rewrite Hf; cbn [rbind]; eauto).
    induction (sv_layers s) as [|l ls IH]; [cbn; eauto|]. destruct IH as [fns Hf]; [intros; apply H; right; assumption|]. cbn [map all_ok]. rewrite Hf. unfold layer_rhs. destruct (sb_dyn l) as [d|] eqn:Hd; [cbn; eauto|]. exfalso. apply (H l); [left; reflexivity|exact Hd].
Qed.

(** ** Response *)
Lemma csum_ext n f g : (forall k, (k < n)%nat -> f k = g k) -> csum n f = csum n g.
Proof. induction n as [|n IH]; intros H; [reflexivity|]. cbn. rewrite IH, H by (intros; try apply H; lia). reflexivity. Qed.
Lemma csum_sigma n f : csum n f = (Sigma n (fun k => fst (f k)), Sigma n (fun k => snd (f k))).
Proof. induction n as [|n IH]; [reflexivity|]. cbn. rewrite IH. reflexivity. Qed.
Lemma Sigma_plus n f g : Sigma n (fun k => f k + g k) = Sigma n f + Sigma n g.
Proof. induction n as [|n IH]; cbn [Sigma]; [ring|rewrite IH; ring]. Qed.
Lemma Sigma_swap n m (f : nat -> nat -> R) : Sigma n (fun i => Sigma m (fun j => f i j)) = Sigma m (fun j => Sigma n (fun i => f i j)).
Proof. induction n as [|n IH]; cbn [Sigma]; [induction m as [|m IHm]; cbn [Sigma]; [reflexivity|rewrite <- IHm; ring]|]. rewrite IH, <- Sigma_plus. reflexivity. Qed.
Lemma Sigma_pick n r f : (r < n)%nat -> Sigma n (fun c => if Nat.eqb r c then f c else 0) = f r.
Proof.
  induction n as [|n IH]; intros H; [lia|]. cbn [Sigma]. destruct (Nat.eqb_spec r n) as [->|N].
  - rewrite (Sigma_ext n _ (fun _ => 0)). replace (Sigma n (fun _ => 0)) with 0; [ring|]. clear. induction n as [|n IH]; cbn; [reflexivity|rewrite <- IH; ring].
    intros i Hi. destruct (Nat.eqb_spec n i); [lia|reflexivity].
  - rewrite IH by lia. ring.
Qed.
Lemma inverse_solves n M B V : inverse n M B -> forall r, (r < n)%nat ->
  csum n (fun k => times (M r k) (csum n (fun c => times (B k c) (V c, 0)))) = (V r, 0).
Proof.
  intros H r Hr.
  assert (E : forall k, times (M r k) (csum n (fun c => times (B k c) (V c, 0))) = (Sigma n (fun c => V c * fst (times (M r k) (B k c))), Sigma n (fun c => V c * snd (times (M r k) (B k c))))).
  { intros k. rewrite csum_sigma. unfold times. cbn [fst snd]. rewrite <- !Sigma_scal. unfold Rminus. f_equal.
    - rewrite <- (Rmult_1_l (Sigma n (fun i => snd (M r k) * _))). rewrite Ropp_mult_distr_l, <- Sigma_scal, <- Sigma_plus. apply Sigma_ext. intros. ring.
    - rewrite <- Sigma_plus. apply Sigma_ext. intros. ring. }
  rewrite (csum_ext n _ _ (fun k _ => E k)), csum_sigma. cbn [fst snd]. rewrite (Sigma_swap n n (fun k c => V c * fst (times (M r k) (B k c)))), (Sigma_swap n n (fun k c => V c * snd (times (M r k) (B k c)))). f_equal.
  - rewrite (Sigma_ext n _ (fun c => if Nat.eqb r c then V c else 0)); [apply Sigma_pick, Hr|]. intros c Hc. rewrite Sigma_scal. specialize (H r c Hr Hc). rewrite csum_sigma in H. destruct (Nat.eqb r c); apply (f_equal fst) in H; cbn [fst] in H; rewrite H; ring.
  - rewrite (Sigma_ext n _ (fun c => if Nat.eqb r c then 0 else 0)); [apply (Sigma_pick n r (fun _ => 0)), Hr|]. intros c Hc. rewrite Sigma_scal. specialize (H r c Hr Hc). rewrite csum_sigma in H. destruct (Nat.eqb r c); apply (f_equal snd) in H; cbn [snd] in H; rewrite H; ring.
Qed.
Lemma linearised_spec inv s H f var value pos phase cache xs : distinct s -> (var = Vp \/ var = Hoe) ->
  linearised_N_spin_diode inv s H f var value pos phase cache = Ok xs ->
  (forall M B, inv (2 * length (sv_layers s))%nat M = Ok B -> inverse (2 * length (sv_layers s)) M B) ->
  cache = "H"%string /\
  exists F y rho, motion s (fun rho => field_at rho field_symbols) true F /\ length xs = (2 * length (sv_layers s))%nat /\
    placed s pos rho /\ field_at rho field_symbols = get_cartesian H /\ rho var = value /\ (forall u, u = Vp \/ u = Hoe -> u <> var -> rho u = 0) /\
    (forall r, (r < 2 * length (sv_layers s))%nat -> nth r xs 0 = fst (y r) * cos phase - snd (y r) * sin phase) /\
    (regular s rho -> responds (fun r => 1 + square (damping s (r / 2))) s F rho var (2 * PI * f) y).
Proof.
  intros D Hvar Hx Hinv. unfold linearised_N_spin_diode in Hx. destruct (negb (forallb is_dynamic (sv_layers s))); [discriminate|].
  apply rbind_iff in Hx. destruct Hx as [[A V] [HAV Hx]]. destruct (String.eqb_spec cache "H") as [Hc|]; [|discriminate].
  split; [exact Hc|]. apply rbind_iff in Hx. destruct Hx as [rho [Hrho Hx]]. cbv zeta in Hx.
  destruct (forallb _ (seq 0 (2 * length (sv_layers s))) && forallb (finite rho) V) eqn:Fin; [|discriminate].
  apply rbind_iff in Hx. destruct Hx as [B [HB Hx]]. injection Hx as <-.
  assert (St : steady field_symbols) by (intros r; cbn; tauto).
  destruct (A_V_spec s var field_symbols (Some f) A V St HAV) as (F & M & LV & HF).
  set (n := (2 * length (sv_layers s))%nat) in *.
  set (y := fun r => csum n (fun c => times (B r c) (eval rho (nth c V (ENum 0)), 0))).
  assert (Oth : forall u, (forall i, u <> Theta i) -> (forall i, u <> Phi i) -> rho u = excitation_subs var value f (get_cartesian H) u).
  { intros u H1 H2. apply (subs_other _ _ _ _ Hrho). intros l _. split; [apply H1|apply H2]. }
  exists F, y, rho. split; [exact M|]. split; [rewrite map_length, seq_length; reflexivity|]. split; [apply (subs_placed _ _ _ _ D Hrho)|].
  assert (Ex : forall a b x r, a <> b -> assign a x r b = r b) by (intros; apply assign_other; congruence).
  split; [|split; [|split; [|split]]].
  - unfold field_at, field_symbols. cbn [sx sy sz eval]. rewrite !Oth by (intros; discriminate). unfold excitation_subs.
    destruct (get_cartesian H) as [h1 h2 h3]. cbn [cx cy cz]. destruct Hvar as [-> | ->]; rewrite !(Ex _ Hx), !(Ex _ Hy), !(Ex _ Hz) by discriminate; rewrite !assign_same, ?(Ex _ Hx), ?(Ex _ Hy), ?assign_same by discriminate; reflexivity.
  - rewrite Oth by (intros; destruct Hvar as [-> | ->]; discriminate). apply assign_same.
  - intros u Hu Nu. rewrite Oth by (intros; destruct Hu as [-> | ->]; discriminate). unfold excitation_subs. rewrite assign_other by exact Nu. destruct Hu as [-> | ->]; unfold assign, nothing; repeat destruct (symbol_eq_dec _ _); try discriminate; reflexivity.
  - intros r Hr. erewrite nth_error_nth; [|apply map_nth_error; rewrite nth_error_nth' with (d := 0%nat) by (rewrite seq_length; exact Hr); rewrite seq_nth by exact Hr; reflexivity]. reflexivity.
  - intros Reg r Hr. destruct (HF r rho Hr Reg) as [PV PA]. fold n.
    pose proof (inverse_solves n _ B (fun c => eval rho (nth c V (ENum 0))) (Hinv _ _ HB) r Hr) as Sol. cbv beta in Sol. fold y in Sol.
    assert (exists J, forall c, (c < n)%nat -> partial (F r) rho (angle s c) (J c) /\ eval rho (fst (A r c)) = - (1 + square (damping s (r / 2))) * J c /\ eval rho (snd (A r c)) = if Nat.eqb r c then (1 + square (damping s (r / 2))) * drive (Some f) rho else 0) as [J HJ].
    { assert (Fc : forall m, (m <= n)%nat -> exists J : nat -> R, forall c, (c < m)%nat -> partial (F r) rho (angle s c) (J c) /\ eval rho (fst (A r c)) = - (1 + square (damping s (r / 2))) * J c /\ eval rho (snd (A r c)) = if Nat.eqb r c then (1 + square (damping s (r / 2))) * drive (Some f) rho else 0).
      { induction m as [|m IH]; intros Hm; [exists (fun _ => 0); intros; lia|]. destruct IH as [J HJ]; [lia|]. destruct (PA m ltac:(lia)) as [j Hj]. exists (fun c => if Nat.eqb c m then j else J c). intros c Hc'. destruct (Nat.eqb_spec c m) as [->|]; [exact Hj|apply HJ; lia]. }
      apply (Fc n). lia. }
    exists J, (eval rho (nth r V (ENum 0))). split; [apply HJ|]. split; [exact PV|].
    set (k := 1 + square (damping s (r / 2))) in *. set (w := 2 * PI * f). change (drive (Some f) rho) with w in HJ.
    rewrite (csum_ext n _ (fun c => (- k * (J c * fst (y c)) + (if Nat.eqb r c then - k * w * snd (y c) else 0), - k * (J c * snd (y c)) + (if Nat.eqb r c then k * w * fst (y c) else 0)))) in Sol.
    2:{ intros c Hc'. destruct (HJ c Hc') as (_ & E1 & E2). change (csum n (fun c0 => times (B c c0) (eval rho (nth c0 V (ENum 0)), 0))) with (y c). unfold times. cbn [fst snd]. rewrite E1, E2. destruct (Nat.eqb r c); f_equal; ring. }
    rewrite csum_sigma in Sol. cbn [fst snd] in Sol. rewrite !Sigma_plus, !Sigma_scal in Sol. rewrite (Sigma_pick n r (fun c => - k * w * snd (y c)) Hr), (Sigma_pick n r (fun c => k * w * fst (y c)) Hr) in Sol. injection Sol as S1 S2.
    split; [rewrite <- S1; ring|]. rewrite <- S2. ring.
Qed.

(** ** Construction *)
Lemma ids_iff (layers : list layerSB) : let n := length layers in
  forallb (fun l => Nat.ltb (sb_id l) n) layers && forallb (fun i => existsb (fun l => Nat.eqb (sb_id l) i) layers) (seq 0 n) = true <-> Permutation (map sb_id layers) (seq 0 n).
Proof.
  cbv zeta. rewrite andb_true_iff, !forallb_forall. split.
  - intros [H1 H2]. assert (I : incl (seq 0 (length layers)) (map sb_id layers)).
    { intros i Hi. specialize (H2 i Hi). apply existsb_exists in H2. destruct H2 as (l & Hl & E). apply Nat.eqb_eq in E. subst. apply in_map, Hl. }
    apply Permutation_sym, NoDup_Permutation_bis; [apply seq_NoDup|rewrite map_length, seq_length; lia|exact I].
  - intros P. split.
    + intros l Hl. apply Nat.ltb_lt. assert (In (sb_id l) (seq 0 (length layers))) by (apply (Permutation_in _ P), in_map, Hl). apply in_seq in H. lia.
    + intros i Hi. apply existsb_exists. apply (Permutation_in _ (Permutation_sym P)) in Hi. apply in_map_iff in Hi. destruct Hi as (l & E & Hl). exists l. split; [exact Hl|]. apply Nat.eqb_eq, E.
Qed.
Lemma new_solver_iff layers J1 J2 H ilD Nd s : newSolver layers J1 J2 H ilD Nd = Ok s <->
  (length layers = length J1 + 1)%nat /\ length J2 = length J1 /\ (forall d, ilD = Some d -> length d = length J1) /\ (forall d, Nd = Some d -> length d = length J1) /\
  Permutation (map sb_id layers) (seq 0 (length layers)) /\
  sv_layers s = layers /\ sv_J1 s = J1 /\ sv_J2 s = J2 /\ sv_H s = H /\
  sv_ilD s = match ilD with None => repeat Zero (length J1) | Some d => map get_cartesian d end /\
  sv_dipole s = match Nd with None => None | Some d => Some (map (fun '(a, b, c) => Ten (get_cartesian a) (get_cartesian b) (get_cartesian c)) d) end.
Proof.
  unfold newSolver. cbv zeta.
  assert (Z : forall n, map get_cartesian (repeat (VO 0 0 0) n) = repeat Zero n).
  { induction n as [|n IH]; [reflexivity|]. cbn [repeat map]. rewrite IH. f_equal. unfold get_cartesian, from_spherical, Zero. cbn. f_equal; ring. }
  split.
  - intros Hx. destruct (Nat.eqb_spec (length layers) (length J1 + 1)) as [E1|]; [|discriminate]. destruct (Nat.eqb_spec (length layers) (length J2 + 1)) as [E2|]; [|discriminate]. cbn [negb] in Hx.
    destruct (Nat.eqb_spec (length layers) (length match ilD with None => repeat (VO 0 0 0) (length layers - 1) | Some d => d end + 1)) as [E3|]; [|discriminate]. cbn [negb] in Hx.
    apply rbind_iff in Hx. destruct Hx as [[] [Hd Hx]]. destruct (forallb _ _ && _) eqn:Ids; [|discriminate]. apply ids_iff in Ids. injection Hx as <-. cbn.
    split; [exact E1|]. split; [lia|]. split; [intros d ->; lia|]. split.
    { intros d ->. destruct (Nat.eqb_spec (length layers) (length d + 1)); [lia|discriminate]. }
    repeat (split; [assumption || reflexivity|]). split.
    + destruct ilD; [reflexivity|]. rewrite Z. f_equal. lia.
    + destruct Nd as [d|]; [|reflexivity]. cbn. f_equal.
  - intros (E1 & E2 & E3 & E4 & P & H1 & H2 & H3 & H4 & H5 & H6). replace (Nat.eqb (length layers) (length J1 + 1)) with true by (symmetry; apply Nat.eqb_eq; lia). replace (Nat.eqb (length layers) (length J2 + 1)) with true by (symmetry; apply Nat.eqb_eq; lia). cbn [negb].
    replace (Nat.eqb (length layers) _) with true.
    2:{ symmetry. apply Nat.eqb_eq. destruct ilD as [d|]; [rewrite (E3 d eq_refl); lia|rewrite repeat_length; lia]. }
    cbn [negb]. apply rbind_iff. exists tt. split.
    + destruct Nd as [d|]; [|reflexivity]. rewrite (E4 d eq_refl), E1, Nat.eqb_refl. reflexivity.
    + apply ids_iff in P. cbv zeta in P. rewrite P. f_equal. destruct s as [a b c d e f]. cbn in *. subst. f_equal. destruct ilD; [reflexivity|]. rewrite Z. f_equal. lia.
Qed.
Lemma solver_distinct layers J1 J2 H ilD Nd s : newSolver layers J1 J2 H ilD Nd = Ok s -> distinct s.
Proof. intros Hs. apply new_solver_iff in Hs. destruct Hs as (_ & _ & _ & _ & P & E & _). unfold distinct. rewrite E. apply (Permutation_NoDup (Permutation_sym P)), seq_NoDup. Qed.
Lemma new_layer_iff i t Kv Ks Ms Hd Nd dyn l : newLayerSB i t Kv Ks Ms Hd Nd dyn = Ok l <-> (i <= 9)%nat /\
  sb_id l = i /\ sb_thickness l = t /\ sb_Kv l = Kv /\ sb_Ks l = Ks /\ sb_Ms l = Ms /\ sb_Hdmi l = Hd /\ sb_Ndemag l = Nd /\ sb_dyn l = dyn.
Proof.
  unfold newLayerSB. destruct (Nat.ltb_spec 9 i) as [H|H]; split; intros X; try discriminate; try lia.
  - injection X as <-. cbn. auto 10.
  - f_equal. destruct l. cbn in X. destruct X as (_ & -> & -> & -> & -> & -> & -> & -> & ->). reflexivity.
Qed.
Lemma at_most_ten layers J1 J2 H ilD Nd s : newSolver layers J1 J2 H ilD Nd = Ok s -> (forall l, In l layers -> (sb_id l <= 9)%nat) -> (1 <= length layers <= 10)%nat.
Proof.
  intros Hs Hl. apply new_solver_iff in Hs. destruct Hs as (E & _ & _ & _ & P & _). split; [lia|].
  destruct (Nat.le_gt_cases (length layers) 10) as [|C]; [assumption|]. exfalso. assert (In 10%nat (map sb_id layers)) by (apply (Permutation_in _ (Permutation_sym P)), in_seq; lia).
  apply in_map_iff in H0. destruct H0 as (l & El & Hin). specialize (Hl l Hin). lia.
Qed.
Lemma references_ok s i cs : (i < length (sv_layers s))%nat -> (length (sv_layers s) = length cs + 1)%nat ->
  get_layer_references s i cs =
  Ok (match i with O => None | S k => nth_error (sv_layers s) k end, nth_error (sv_layers s) (S i), match i with O => 0 | S k => nth k cs 0 end, nth i cs 0).
Proof.
  intros Hi L. unfold get_layer_references. destruct (Nat.eqb_spec (length (sv_layers s)) 1) as [E|E].
  - assert (i = 0%nat) by lia. subst i. destruct cs; [|cbn in L; lia]. destruct (sv_layers s) as [|x [|y z]]; cbn in E; try lia. reflexivity.
  - destruct i as [|i].
    + cbn [Nat.eqb Nat.add]. destruct (sv_layers s) as [|a [|b ls]]; cbn in E, L; try lia. destruct cs as [|c cs]; cbn in L; [lia|]. reflexivity.
    + change (Nat.eqb (S i) 0) with false. cbv iota. destruct (Nat.eqb_spec (S i) (length (sv_layers s) - 1)) as [El|El].
      * replace (S i - 1)%nat with i by lia. unfold at_. rewrite (nth_error_nth' _ (the_layer s i) (n := i)) by lia. cbn [rbind].
        rewrite (nth_error_nth' cs 0 (n := (length cs - 1)%nat)) by lia. cbn [rbind]. f_equal.
        replace (nth_error (sv_layers s) (S (S i))) with (@None layerSB) by (symmetry; apply nth_error_None; lia). rewrite (nth_overflow cs 0 (n := S i)) by lia. replace (length cs - 1)%nat with i by lia. reflexivity.
      * replace (S i - 1)%nat with i by lia. replace (S i + 1)%nat with (S (S i)) by lia. unfold at_. rewrite (nth_error_nth' _ (the_layer s i) (n := i)), (nth_error_nth' _ (the_layer s i) (n := S (S i))) by lia. cbn [rbind].
        rewrite (nth_error_nth' cs 0 (n := i)), (nth_error_nth' cs 0 (n := S i)) by lia. reflexivity.
Qed.
Lemma layer_energy_eval rho l h a b c d up down : eval rho (total_symbolic_layer_energy l h a b c d up down) =
  sb_thickness l * film_energy l (field_at rho h) (direction l rho) +
  match up with None => 0 | Some o => coupling a c Zero (direction l rho) (direction o rho) end + match down with None => 0 | Some o => coupling b d Zero (direction l rho) (direction o rho) end.
Proof.
  unfold total_symbolic_layer_energy. cbn [eval]. rewrite film_eval.
  assert (Z : forall m, Dot Zero m = 0) by (intros [m1 m2 m3]; unfold Dot, Zero; cbn [cx cy cz]; ring).
  assert (I : forall j1 j2 o, eval rho (iec_energy l j1 j2 o) = match o with None => 0 | Some o => coupling j1 j2 Zero (direction l rho) (direction o rho) end).
  { intros j1 j2 [o|]; [|reflexivity]. unfold iec_energy, coupling. rewrite eval_sub. unfold ESq. cbn [eval]. rewrite !eval_sdot, !eval_m, Z. unfold square. ring. }
  rewrite !I. ring.
Qed.

(** ** Solution *)
Lemma solve_iff {D} dyn num s p max pert noise init fsl fsb (sol : solution D) :
  solve dyn num s p max pert noise init fsl fsb = Ok sol <->
  sv_H s <> None /\ length init = (2 * length (sv_layers s))%nat /\ exists eq first, adam_gradient_descent (gradfn s) p max pert noise init = Ok eq /\ nth_error (sv_layers s) 0 = Some first /\
  ((fsb = false /\ sb_dyn first <> None /\ exists d, dyn s eq = Ok d /\ sol = Modes eq d) \/
   ((fsb = true \/ sb_dyn first = None) /\ (length (sv_layers s) = 1%nat \/ fsl = true) /\ exists fs, sol = Frequencies eq fs /\ length fs = length (sv_layers s) /\
      forall i, (i < length fs)%nat -> single_layer_resonance s i eq = Ok (nth i fs 0 * 10 ^ 9)) \/
   ((fsb = true \/ sb_dyn first = None) /\ length (sv_layers s) <> 1%nat /\ fsl = false /\ exists fs, num s eq = Ok fs /\ sol = Frequencies eq fs)).
Proof.
  assert (P9 : 10 ^ 9 <> 0) by (apply pow_nonzero; lra).
  unfold solve. split.
  - intros H. apply rbind_iff in H. destruct H as [[] [HH H]]. split; [destruct (sv_H s); [discriminate|discriminate]|].
    destruct (Nat.eqb_spec (length init) (2 * length (sv_layers s))) as [L|]; [|discriminate]. cbn [negb] in H. split; [exact L|].
    apply rbind_iff in H. destruct H as [eq [He H]]. apply rbind_iff in H. destruct H as [first [Hf H]]. apply at_iff in Hf. exists eq, first. split; [exact He|]. split; [exact Hf|].
    destruct (negb fsb && match sb_dyn first with Some _ => true | None => false end) eqn:C.
    + left. apply andb_true_iff in C. destruct C as [C1 C2]. split; [destruct fsb; [discriminate|reflexivity]|]. split; [destruct (sb_dyn first); discriminate|].
      apply rbind_iff in H. destruct H as [d [Hd H]]. injection H as <-. eauto.
    + right. assert (C' : fsb = true \/ sb_dyn first = None) by (destruct fsb; [left; reflexivity|right; destruct (sb_dyn first); [discriminate|reflexivity]]).
      cbv zeta in H. destruct (Nat.eqb_spec (length (sv_layers s)) 1) as [E|E].
      * left. split; [exact C'|]. split; [left; exact E|]. apply rbind_iff in H. destruct H as [f [Hr H]]. injection H as <-. exists [f / 10 ^ 9]. split; [reflexivity|]. split; [symmetry; exact E|].
        intros [|i] Hi; [|cbn in Hi; lia]. cbn [nth]. rewrite Hr. f_equal. field.
      * destruct fsl.
        -- left. split; [exact C'|]. split; [right; reflexivity|]. apply rbind_iff in H. destruct H as [fs [Hfs H]]. injection H as <-. exists fs. apply (all_ok_iff _ _ _ 0) in Hfs. destruct Hfs as [Lf Hfs]. split; [reflexivity|]. split; [exact Lf|].
           intros i Hi. rewrite Lf in Hi. specialize (Hfs i Hi). cbv beta in Hfs. apply rbind_iff in Hfs. destruct Hfs as [f [Hr Hfs]]. injection Hfs as Hfs. rewrite Hr. f_equal. rewrite <- Hfs. field.
        -- right. split; [exact C'|]. split; [exact E|]. split; [reflexivity|]. apply rbind_iff in H. destruct H as [fs [Hfs H]]. injection H as <-. eauto.
  - intros (HH & L & eq & first & He & Hf & H). destruct (sv_H s) as [v|]; [|contradiction]. cbn [rbind]. rewrite L, Nat.eqb_refl. cbn [negb]. rewrite He. cbn [rbind]. apply at_iff in Hf. rewrite Hf. cbn [rbind].
    destruct H as [(-> & Hd & d & Hdyn & ->)|[(C & Hone & fs & -> & Lf & Hr)|(C & E & -> & fs & Hn & ->)]].
    + destruct (sb_dyn first); [|contradiction]. cbn [negb andb]. rewrite Hdyn. reflexivity.
    + replace (negb fsb && match sb_dyn first with Some _ => true | None => false end) with false by (destruct C as [-> | ->]; [reflexivity|destruct fsb; reflexivity]).
      cbv zeta. destruct (Nat.eqb_spec (length (sv_layers s)) 1) as [E|E].
      * destruct fs as [|f [|g fs]]; cbn in Lf; try lia. specialize (Hr 0%nat ltac:(cbn; lia)). cbn [nth] in Hr. rewrite Hr. cbn [rbind]. do 3 f_equal. field.
      * destruct Hone as [Hone|Hone]; [contradiction|]. rewrite Hone. apply rbind_iff. exists fs. split; [|reflexivity]. apply (all_ok_iff _ _ _ 0). split; [exact Lf|]. intros i Hi. rewrite (Hr i ltac:(lia)). cbn [rbind]. f_equal. field.
    + replace (negb fsb && match sb_dyn first with Some _ => true | None => false end) with false by (destruct C as [-> | ->]; [reflexivity|destruct fsb; reflexivity]).
      cbv zeta. destruct (Nat.eqb_spec (length (sv_layers s)) 1) as [|_]; [contradiction|]. rewrite Hn. reflexivity.
Qed.

(** ** Field scan *)
Lemma set_H_twice a b s : set_H a (set_H b s) = set_H a s.
Proof. reflexivity. Qed.
Lemma scan_loop_iff descend roots heap : forall refs s pos s' outs, scan_loop descend roots heap refs s pos = Ok (s', outs) <->
  exists fields, Forall2 (fun r H => nth_error heap r = Some H) refs fields /\ scanned descend roots s fields pos outs s'.
Proof.
  induction refs as [|h refs IH]; intros s pos s' outs; cbn [scan_loop].
  - split.
    + intros H. injection H as <- <-. exists []. split; [constructor|]. split; [reflexivity|]. split; [intros [|k] H Hk; discriminate|reflexivity].
    + intros (fields & F & L & _ & ->). inversion F; subst. destruct outs; [reflexivity|discriminate].
  - split.
    + intros H. apply rbind_iff in H. destruct H as [Hv [Hh H]]. apply at_iff in Hh. apply rbind_iff in H. destruct H as [eq [He H]]. apply rbind_iff in H. destruct H as [r [Hr H]].
      apply rbind_iff in H. destruct H as [[s2 rest] [Hrest H]]. cbn [fst snd] in H. injection H as <- <-. apply IH in Hrest. destruct Hrest as (fields & F & L & Sc & ->).
      exists (Hv :: fields). split; [constructor; assumption|]. split; [cbn; congruence|]. split.
      * intros [|k] H Hk; [injection Hk as <-; exists eq, r; auto|]. destruct (Sc k H Hk) as (eq' & r' & O & De & Ro). exists eq', r'. split; [exact O|]. split; [|exact Ro]. rewrite set_H_twice in De. destruct k as [|k]; exact De.
      * destruct fields as [|f fields]; [reflexivity|]. rewrite set_H_twice. reflexivity.
    + intros (fields & F & L & Sc & ->). inversion F as [|? Hv ? fields' Hh F']; subst. destruct outs as [|[[eq r] o] outs]; [discriminate|].
      destruct (Sc 0%nat Hv eq_refl) as (eq0 & r0 & O & De & Ro). cbn in O. injection O as -> -> ->. apply at_iff in Hh. rewrite Hh. cbn [rbind]. cbn [start_of] in De. rewrite De. cbn [rbind]. rewrite Ro. cbn [rbind].
      apply rbind_iff. exists (set_H (last (Hv :: fields') (VO 0 0 0)) s, outs). split; [|reflexivity]. apply IH. exists fields'. split; [exact F'|]. split; [cbn in L; congruence|]. split.
      * intros k H Hk. destruct (Sc (S k) H Hk) as (eq' & r' & O & De' & Ro'). exists eq', r'. split; [exact O|]. split; [|exact Ro']. rewrite set_H_twice. destruct k as [|k]; exact De'.
      * destruct fields' as [|f fields']; [reflexivity|]. rewrite set_H_twice. reflexivity.
Qed.
Lemma nth_set {A} (x : A) xs : forall i j, nth_error (set_nth i x xs) j = if Nat.eqb i j then option_map (fun _ => x) (nth_error xs j) else nth_error xs j.
Proof. induction xs as [|y xs IH]; intros [|i] [|j]; cbn; try reflexivity; try (destruct (Nat.eqb i j); reflexivity). apply IH. Qed.
Lemma same_nth {A} : forall xs ys : list A, (forall i, nth_error xs i = nth_error ys i) -> xs = ys.
Proof.
  induction xs as [|x xs IH]; intros [|y ys] H; [reflexivity|specialize (H 0%nat); discriminate..|]. pose proof (H 0%nat) as H0. injection H0 as ->. f_equal. apply IH. intros i. exact (H (S i)).
Qed.
Lemma scan_iff descend roots heap refs init s heap' s' outs : analytical_field_scan descend roots heap refs init s = Ok (heap', s', outs) <->
  match init with
  | Some p => heap' = heap /\ exists fields, Forall2 (fun r H => nth_error heap r = Some H) refs fields /\ scanned descend roots s fields p outs s'
  | None => exists h0 start, nth_error refs 0 = Some h0 /\ nth_error heap h0 = Some start /\
      length heap' = length heap /\ (forall j, j <> h0 -> nth_error heap' j = nth_error heap j) /\ nth_error heap' h0 = Some (VO (vo_theta start) (vo_phi start) 1) /\
      exists fields, Forall2 (fun r H => nth_error heap' r = Some H) refs fields /\
        scanned descend roots s fields (concat (repeat [vo_theta start; vo_phi start] (length (sv_layers s)))) outs s'
  end.
Proof.
  unfold analytical_field_scan. destruct init as [p|].
  - split.
    + intros H. apply rbind_iff in H. destruct H as [[s2 o2] [H1 H]]. injection H as <- <- <-. split; [reflexivity|]. apply scan_loop_iff, H1.
    + intros [-> H]. apply scan_loop_iff in H. rewrite H. reflexivity.
  - assert (St : forall start, flat_map (fun _ : layerSB => [vo_theta start; vo_phi start]) (sv_layers s) = concat (repeat [vo_theta start; vo_phi start] (length (sv_layers s)))).
    { intros start. induction (sv_layers s) as [|l ls IH]; [reflexivity|]. cbn [flat_map length repeat concat]. rewrite IH. reflexivity. }
    assert (Ln : forall A (x : A) xs i, length (set_nth i x xs) = length xs) by (intros A x xs; induction xs as [|y xs IH]; intros [|i]; cbn; try reflexivity; rewrite IH; reflexivity).
    split.
    + intros H. apply rbind_iff in H. destruct H as [h0 [H0 H]]. apply at_iff in H0. apply rbind_iff in H. destruct H as [start [Hs H]]. apply at_iff in Hs. cbv zeta in H. rewrite St in H.
      apply rbind_iff in H. destruct H as [[s2 o2] [H1 H]]. injection H as <- <- <-. exists h0, start. split; [exact H0|]. split; [exact Hs|]. split; [apply Ln|].
      split; [intros j Hj; rewrite nth_set; destruct (Nat.eqb_spec h0 j); [congruence|reflexivity]|]. split; [rewrite nth_set, Nat.eqb_refl, Hs; reflexivity|]. apply scan_loop_iff, H1.
    + intros (h0 & start & H0 & Hs & L & Ot & At & H). apply at_iff in H0. rewrite H0. cbn [rbind]. assert (Hs' := Hs). apply at_iff in Hs'. rewrite Hs'. cbn [rbind]. cbv zeta. rewrite St.
      assert (E : set_nth h0 (VO (vo_theta start) (vo_phi start) 1) heap = heap').
      { apply same_nth. intros j. rewrite nth_set. destruct (Nat.eqb_spec h0 j) as [<-|N]; [rewrite Hs, At; reflexivity|symmetry; apply Ot; congruence]. }
      rewrite E. apply scan_loop_iff in H. rewrite H. reflexivity.
Qed.
