(** Proofs about stacks that are turned in space (C107). *)
From Verif Require Import S_Turn P_Reach P_RunEx.
From Verif Require Export P_Reach S_Turn.
From Coq Require Import Lra Psatz.
Open Scope R_scope.
Open Scope st_scope.

(** ** Rotations *)
Lemma turn_plus Q u v : turn Q (Plus u v) = Plus (turn Q u) (turn Q v).
Proof. destruct Q as [[] [] []], u, v. unfold turn, MatVec, Plus, Dot. cbn. apply vec_eq; ring. Qed.
Lemma turn_scal Q k v : turn Q (Scal k v) = Scal k (turn Q v).
Proof. destruct Q as [[] [] []], v. unfold turn, MatVec, Scal, Dot. cbn. apply vec_eq; ring. Qed.
Lemma turn_zero Q : turn Q Zero = Zero.
Proof. destruct Q as [[] [] []]. unfold turn, MatVec, Zero, Dot. cbn. apply vec_eq; ring. Qed.
Lemma turn_sum Q : forall vs, turn Q (Sum vs) = Sum (map (turn Q) vs).
Proof. induction vs as [|v vs IH]; cbn [Sum fold_right map]; [apply turn_zero|]. rewrite turn_plus. f_equal. exact IH. Qed.
Lemma turn_adjoint Q u v : Dot (turn (back Q) u) v = Dot u (turn Q v).
Proof. destruct Q as [[] [] []], u, v. unfold turn, back, MatVec, Dot. cbn. ring. Qed.
Lemma back_twice Q : back (back Q) = Q.
Proof. destruct Q as [[] [] []]. reflexivity. Qed.
Lemma dot_ext u v : (forall w, Dot u w = Dot v w) -> u = v.
Proof.
  intros H. pose proof (H (CV 1 0 0)) as A. pose proof (H (CV 0 1 0)) as B. pose proof (H (CV 0 0 1)) as C. destruct u, v. unfold Dot in *. cbn in *. apply vec_eq; lra.
Qed.
Section rot.
  Context (Q : tensor) (HQ : rotation Q).
  Lemma back_turn v : turn (back Q) (turn Q v) = v.
  Proof. apply dot_ext. intros w. rewrite turn_adjoint. apply (proj1 HQ). Qed.
  Lemma turn_back v : turn Q (turn (back Q) v) = v.
  Proof.
    (* the difference w is orthogonal to the images of all vectors *)
    set (w := Plus (turn Q (turn (back Q) v)) (Scal (-1) v)).
    assert (O : forall u, Dot w (turn Q u) = 0).
    { intros u. replace (Dot w (turn Q u)) with (Dot (turn Q (turn (back Q) v)) (turn Q u) - Dot v (turn Q u)) by (unfold w; destruct (turn Q (turn (back Q) v)), v, (turn Q u); unfold Dot, Plus, Scal; cbn; ring).
      rewrite (proj1 HQ), turn_adjoint. ring. }
    set (p := turn Q (CV 1 0 0)). set (q := turn Q (CV 0 1 0)). set (r := turn Q (CV 0 0 1)).
    assert (Er : Cross p q = r) by (unfold p, q, r; rewrite (proj2 HQ); f_equal; unfold Cross; cbn; apply vec_eq; ring).
    assert (Nr : Norm2 r = 1) by (unfold r, Norm2; rewrite (proj1 HQ); unfold Dot; cbn; ring).
    assert (X : Cross w r = Zero).
    { rewrite <- Er. replace (Cross w (Cross p q)) with (Plus (Scal (Dot w q) p) (Scal (- Dot w p) q)) by (destruct w, p, q; unfold Cross, Plus, Scal, Dot; cbn; apply vec_eq; ring).
      unfold p, q. rewrite !O. destruct (turn Q (CV 1 0 0)), (turn Q (CV 0 1 0)). unfold Plus, Scal, Zero. cbn. apply vec_eq; ring. }
    pose proof (Lagrange w r) as L. rewrite X, Nr in L. unfold r in L. rewrite O in L.
    assert (N0 : Norm2 Zero = 0) by (unfold Norm2, Zero, Dot; ring). rewrite N0 in L.
    assert (Z : w = Zero) by (apply Norm2_zero; lra). unfold w in Z. destruct (turn Q (turn (back Q) v)), v. unfold Plus, Scal, Zero in Z. cbn in Z. injection Z as Z1 Z2 Z3. apply vec_eq; lra.
  Qed.
  Lemma back_rotation : rotation (back Q).
  Proof.
    split; intros a b.
    - rewrite turn_adjoint, turn_back. reflexivity.
    - rewrite <- (back_turn (Cross _ _)), <- (proj2 HQ), !turn_back. reflexivity.
  Qed.
  Lemma turn_inj u v : turn Q u = turn Q v -> u = v.
  Proof. intros E. rewrite <- (back_turn u), E. apply back_turn. Qed.
  Lemma turn_zero_iff v : turn Q v = Zero <-> v = Zero.
  Proof. split; [intros E; apply turn_inj; rewrite E, turn_zero; reflexivity|intros ->; apply turn_zero]. Qed.
  Lemma turn_norm v : Norm (turn Q v) = Norm v.
  Proof. unfold Norm, Norm2. rewrite (proj1 HQ). reflexivity. Qed.
  Lemma turn_normalised v u : Normalised v u -> Normalised (turn Q v) (turn Q u).
  Proof.
    intros [[-> ->]|[N ->]]; [left; rewrite turn_zero; auto|right]. split; [rewrite turn_zero_iff; exact N|]. rewrite turn_norm, turn_scal. reflexivity.
  Qed.
  Lemma conjugate_turned N : turned_tensor Q N (conjugate Q N).
  Proof.
    intros v. rewrite <- (back_turn v) at 2. set (w := turn Q v). clearbody w. destruct Q as [[] [] []], N as [[] [] []], w.
    unfold turn, conjugate, back, MatVec, Dot. cbn. apply vec_eq; ring.
  Qed.
  Lemma turned_tensor_back N N' : turned_tensor Q N N' -> turned_tensor (back Q) N' N.
  Proof. intros H v. rewrite <- (turn_back v) at 2. rewrite H. symmetry. apply back_turn. Qed.
  Lemma turned_driver_back d d' : turned_driver Q d d' -> turned_driver (back Q) d' d.
  Proof. intros H t v. rewrite (H t (turn (back Q) v)), turn_back. reflexivity. Qed.
  Lemma turned_back l m : turned Q l m -> turned (back Q) m l.
  Proof.
    intros [T1 T2 T3 T4 T5 T6 T7 T8 T9 T10 T11 T12 T13 T14 T15 T16 T17 T18].
    constructor; try (apply turned_tensor_back; assumption); try (apply turned_driver_back; assumption); try tauto.
    - congruence.
    - rewrite T2, back_turn. reflexivity.
    - rewrite T3, back_turn. reflexivity.
    - rewrite T4, back_turn. reflexivity.
    - intros X k. destruct T16 as (_ & _ & _ & _ & F & _). rewrite T14 by congruence. rewrite back_turn. reflexivity.
    - destruct T15 as (? & ? & ? & ? & ? & ? & ? & ? & ? & ?). repeat split; congruence.
    - destruct T16 as (? & ? & ? & ? & ? & ?). repeat split; congruence.
    - destruct T17 as (? & ? & ? & ? & ? & ? & ? & ? & ?). repeat split; congruence.
  Qed.

  (** ** The right-hand side *)
  Definition turned_inputs (i : field_inputs) : field_inputs :=
    FI (turn Q (fi_ext i)) (turn Q (fi_oe i)) (turn Q (fi_dmi i)) (turn Q (fi_res i)) (fi_K i) (fi_Jb i) (fi_Jt i) (fi_J2b i) (fi_J2t i) (turn Q (fi_Db i)) (turn Q (fi_Dt i)).
  Lemma inputs_turn l m t i : turned Q l m -> inputs_at l t i -> inputs_at m t (turned_inputs i).
  Proof.
    intros T (I1 & I2 & I3 & I4 & I5 & I6 & I7 & I8 & I9 & I10 & I11). destruct (tn_drivers _ _ _ T) as (_ & D2 & D3 & D4 & D5 & _ & D7 & _).
    unfold inputs_at, turned_inputs. cbn [fi_ext fi_oe fi_dmi fi_res fi_K fi_Jb fi_Jt fi_J2b fi_J2t fi_Db fi_Dt]. rewrite D2, D3, D4, D5, D7.
    repeat split; try assumption; [apply (tn_external _ _ _ T)|apply (tn_Oersted _ _ _ T)|apply (tn_Hdmi _ _ _ T)|apply (tn_Hreserved _ _ _ T)|apply (tn_IDMIBottom _ _ _ T)|apply (tn_IDMITop _ _ _ T)]; assumption.
  Qed.
  Lemma H_iec_turn J J2 k x c : H_iec J J2 k (turn Q x) (turn Q c) = turn Q (H_iec J J2 k x c).
  Proof. unfold H_iec. rewrite (proj1 HQ), turn_scal. reflexivity. Qed.
  Lemma H_idmi_turn D k c : H_idmi (turn Q D) k (turn Q c) = turn Q (H_idmi D k c).
  Proof. unfold H_idmi. rewrite (proj2 HQ), turn_scal. reflexivity. Qed.
  Lemma H_tensor_turn N N' k x : turned_tensor Q N N' -> H_tensor N' k (turn Q x) = turn Q (H_tensor N k x).
  Proof. intros H. unfold H_tensor. rewrite H, turn_scal. reflexivity. Qed.
  Lemma dipole_turn l m b top : turned Q l m -> dipole_total m (turn Q b) (turn Q top) = turn Q (dipole_total l b top).
  Proof.
    intros T. destruct (tn_numbers _ _ _ T) as (N1 & _). unfold dipole_total. rewrite turn_plus, N1, (H_tensor_turn _ _ _ _ (tn_dipoleBottom _ _ _ T)), (H_tensor_turn _ _ _ _ (tn_dipoleTop _ _ _ T)). reflexivity.
  Qed.
  Lemma field_turn l m i x b top : turned Q l m ->
    H_eff m (turned_inputs i) (turn Q x) (turn Q b) (turn Q top) (dipole_total m (turn Q b) (turn Q top)) Zero = turn Q (H_eff l i x b top (dipole_total l b top) Zero).
  Proof.
    intros T. destruct (tn_numbers _ _ _ T) as (N1 & N2 & _). unfold H_eff. rewrite turn_sum. cbn [map]. rewrite (dipole_turn _ _ _ _ T).
    unfold IEC_total, IDMI_total, turned_inputs. cbn [fi_ext fi_oe fi_dmi fi_res fi_K fi_Jb fi_Jt fi_J2b fi_J2t fi_Db fi_Dt].
    rewrite !H_iec_turn, !H_idmi_turn, !turn_scal, !turn_plus, turn_zero, N1, N2, (H_tensor_turn _ _ _ _ (tn_demag _ _ _ T)). unfold H_anis. rewrite (tn_anis _ _ _ T), (proj1 HQ), turn_scal. reflexivity.
  Qed.
  Lemma LL_turn a x H : LL a (turn Q x) (turn Q H) = turn Q (LL a x H).
  Proof. unfold LL. rewrite turn_plus, turn_scal, !(proj2 HQ). reflexivity. Qed.
  Lemma plain_turn a x H : LLG_plain a (turn Q x) (turn Q H) = turn Q (LLG_plain a x H).
  Proof. unfold LLG_plain. rewrite LL_turn, turn_scal. reflexivity. Qed.
  Lemma stt_turn a k be aj x H p : LLG_stt a k be aj (turn Q x) (turn Q H) (turn Q p) = turn Q (LLG_stt a k be aj x H p).
  Proof. unfold LLG_stt. rewrite LL_turn, !(proj2 HQ), turn_scal, !turn_plus, !turn_scal. reflexivity. Qed.
  Lemma sot_turn a d f x H p : LLG_sot a d f (turn Q x) (turn Q H) (turn Q p) = turn Q (LLG_sot a d f x H p).
  Proof. unfold LLG_sot. rewrite LL_turn, !(proj2 HQ), turn_scal, !turn_plus, !turn_scal. reflexivity. Qed.
  Lemma polariser_turn l m b top : turned Q l m -> polariser m (turn Q b) (turn Q top) = turn Q (polariser l b top).
  Proof.
    intros T. destruct (tn_flags _ _ _ T) as (_ & _ & _ & _ & _ & F). unfold polariser. rewrite F. destruct (l_refType l); try reflexivity; [symmetry; apply turn_zero|apply (tn_reference _ _ _ T)].
  Qed.
  Lemma llg_turn l m t x b top H d : turned Q l m -> llg_spec l t x b top H d -> llg_spec m t (turn Q x) (turn Q b) (turn Q top) (turn Q H) (turn Q d).
  Proof.
    intros T S. pose proof (polariser_turn l m b top T) as P. destruct (tn_numbers _ _ _ T) as (N1 & N2 & _ & N4 & N5 & N6 & N7 & N8 & N9 & N10). destruct (tn_flags _ _ _ T) as (F1 & F2 & F3 & F4 & _). destruct (tn_drivers _ _ _ T) as (_ & _ & _ & _ & _ & D6 & _ & D8 & D9).
    destruct S as [A B|I A B C D E|hdl hfl A B C D E|I A B C D].
    - rewrite <- plain_turn, <- N4. apply llg_plain; congruence.
    - rewrite <- stt_turn, <- P, <- (proj1 HQ x (polariser l b top)), <- P, <- N1, <- N2, <- N4, <- N7, <- N8, <- N9, <- N10, <- F4. apply llg_stt; try congruence. rewrite F4, N7, P, (proj1 HQ). exact E.
    - rewrite <- sot_turn, <- P, <- N4. apply llg_sot_dynamic; congruence.
    - rewrite <- sot_turn, <- P, <- N4, <- N5, <- N6. apply llg_sot_static; congruence.
  Qed.
  Lemma rhs_turn l m t x b top d : turned Q l m -> rhs l t x b top d -> rhs m t (turn Q x) (turn Q b) (turn Q top) (turn Q d).
  Proof.
    intros T (i & I & A & B & L). exists (turned_inputs i). split; [exact (inputs_turn _ _ _ _ T I)|]. destruct (tn_numbers _ _ _ T) as (N1 & N2 & _). split; [congruence|]. split; [congruence|].
    rewrite (field_turn _ _ _ _ _ _ T). exact (llg_turn _ _ _ _ _ _ _ _ T L).
  Qed.
  Lemma noise_turn l m t w : turned Q l m -> noise_spec l t w -> noise_spec m t (turn Q w).
  Proof.
    intros T (a & b & A & B & ->). destruct (tn_quiet _ _ _ T) as [Z Z']. exists (turn Q a), Zero. split; [|split; [left; auto|]].
    - destruct (tn_flags _ _ _ T) as (_ & _ & _ & _ & F & _). unfold thermal_part in *. rewrite F. destruct (l_temperatureSet l) eqn:TS; [|subst a; apply turn_zero].
      destruct A as (s & (S1 & te & S2 & S3 & S4 & S5) & ->). exists s. destruct (tn_numbers _ _ _ T) as (N1 & _ & N3 & N4 & _). destruct (tn_drivers _ _ _ T) as (D1 & _).
      split; [unfold thermal_sd; rewrite N1, N3, N4, D1; split; [exact S1|]; exists te; auto|]. rewrite turn_scal. f_equal. pose proof (tn_random _ _ _ T TS 0%nat) as R. unfold gaussians in R.
      change (3 * 0)%nat with 0%nat in R. rewrite !Nat.add_0_r in R. symmetry. exact R.
    - destruct B as [[_ ->]|[B _]]; [|contradiction]. rewrite turn_plus, turn_zero. reflexivity.
  Qed.
End rot.
