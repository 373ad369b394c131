(** The junction behind the front end. *)
From Verif Require Import P_Domains P_Fit P_Geom P_PyUtils P_Resist P_Api P_Spectrum P_ProcMore.
From Verif Require Import S_Prepare.
From Coq Require Import Psatz.
Open Scope R_scope.
Open Scope st_scope.

Definition lname (p : nat) : string := ("layer_" ++ py_str p)%string.
Lemma lname_inj a b : lname a = lname b -> a = b.
Proof. intros E. apply sapp_inj in E. apply py_str_inj, E. Qed.
Lemma lname_eqb a b : String.eqb (lname a) (lname b) = Nat.eqb a b.
Proof.
  destruct (Nat.eqb_spec a b) as [->|N]; [apply String.eqb_refl|]. apply String.eqb_neq. intros E. apply N, lname_inj, E.
Qed.

(** ** Coupling *)
Lemma mapi_id {A} (xs : list A) : forall i, mapi (fun _ x => x) i xs = xs.
Proof. induction xs as [|x xs IH]; intros i; cbn [mapi]; [reflexivity|]. f_equal. apply IH. Qed.
Lemma coupling_next b t fT fB l0 l1 rest : ((String.eqb (l_id l0) b && String.eqb (l_id l1) t) || (String.eqb (l_id l0) t && String.eqb (l_id l1) b))%bool = false ->
  coupling_loop b t fT fB (l0 :: l1 :: rest) = match coupling_loop b t fT fB (l1 :: rest) with (tail', r) => (l0 :: tail', r) end.
Proof. intros H. cbn [coupling_loop]. rewrite H. reflexivity. Qed.
Lemma coupling_at (fT fB : ST layer unit) (gT gB : layer -> layer) : (forall l, fT l = (gT l, Ok tt)) -> (forall l, fB l = (gB l, Ok tt)) ->
  forall k a ls, map l_id ls = map lname (seq a (length ls)) -> (S k < length ls)%nat ->
  coupling_loop (lname (a + k)) (lname (a + k + 1)) fT fB ls =
    (mapi (fun p l => if Nat.eqb p (a + k) then gT l else if Nat.eqb p (a + k + 1) then gB l else l) a ls, Ok true).
Proof.
  intros HT HB. induction k as [|k IH]; intros a [|l0 [|l1 rest]] E L; cbn [length] in L; try lia; cbn [map length seq] in E; injection E as E0 E1 E2.
  - cbn [coupling_loop]. rewrite E0, E1, Nat.add_0_r, !lname_eqb. replace (S a) with (a + 1)%nat by lia. rewrite !Nat.eqb_refl. cbn [andb orb]. rewrite HT, HB. cbn [mapi].
    replace (S a) with (a + 1)%nat by lia. rewrite !Nat.eqb_refl. destruct (Nat.eqb_spec (a + 1) a) as [|_]; [lia|]. f_equal. f_equal. f_equal.
    rewrite (mapi_ext _ (fun _ l => l)).
    + symmetry. apply mapi_id.
    + intros p x _. destruct (Nat.eqb_spec (S (a + 1) + p) a) as [|_]; [lia|]. destruct (Nat.eqb_spec (S (a + 1) + p) (a + 1)) as [|_]; [lia|]. reflexivity.
  - rewrite coupling_next by (rewrite E0, !lname_eqb; destruct (Nat.eqb_spec a (a + S k)) as [|_]; [lia|]; destruct (Nat.eqb_spec a (a + S k + 1)) as [|_]; [lia|]; reflexivity).
    replace (a + S k)%nat with (S a + k)%nat by lia. rewrite IH.
    + cbn [mapi]. destruct (Nat.eqb_spec a (S a + k)) as [|_]; [lia|]. destruct (Nat.eqb_spec a (S a + k + 1)) as [|_]; [lia|]. reflexivity.
    + cbn [map length seq]. rewrite E1, E2. reflexivity.
    + cbn [length]. lia.
Qed.

Definition coupled_to (s : stack_form) (k p : nat) (l : layer) : layer :=
  set_l_IECTop (if Nat.ltb p k then steady_scalar (sf_J s p / 10 ^ 6) else l_IECTop l)
    (set_l_IECBottom (match p with O => l_IECBottom l | S q => if Nat.ltb q k then steady_scalar (sf_J s q / 10 ^ 6) else l_IECBottom l end) l).
Lemma mapi_comp {A B C} (f : nat -> B -> C) (g : nat -> A -> B) xs : forall i, mapi f i (mapi g i xs) = mapi (fun p x => f p (g p x)) i xs.
Proof. induction xs as [|x xs IH]; intros i; cbn [mapi]; [reflexivity|]. f_equal. apply IH. Qed.
Lemma couple_all_eq s ls : map l_id ls = map lname (seq 0 (length ls)) -> forall n k j, (k + n < length ls)%nat -> j_layers j = mapi (coupled_to s k) 0 ls ->
  couple_all s ls (seq k n) j = (set_j_layers (mapi (coupled_to s (k + n)) 0 ls) j, Ok tt).
Proof.
  intros HI. induction n as [|n IH]; intros k j L E.
  - cbn [seq couple_all]. rewrite Nat.add_0_r, <- E. unfold ret. f_equal. destruct j; reflexivity.
  - cbn [seq couple_all]. assert (N1 : exists l1, nth_error ls k = Some l1 /\ l_id l1 = lname k).
    { destruct (nth_error ls k) as [l1|] eqn:X; [|apply nth_error_None in X; lia]. exists l1. split; [reflexivity|].
      assert (Y : nth_error (map l_id ls) k = Some (l_id l1)) by (rewrite nth_error_map, X; reflexivity). rewrite HI, nth_error_map in Y.
      rewrite (nth_error_nth' _ 0%nat) in Y by (rewrite seq_length; lia). rewrite seq_nth in Y by lia. cbn [option_map Nat.add] in Y. congruence. }
    assert (N2 : exists l2, nth_error ls (k + 1) = Some l2 /\ l_id l2 = lname (k + 1)).
    { destruct (nth_error ls (k + 1)) as [l1|] eqn:X; [|apply nth_error_None in X; lia]. exists l1. split; [reflexivity|].
      assert (Y : nth_error (map l_id ls) (k + 1) = Some (l_id l1)) by (rewrite nth_error_map, X; reflexivity). rewrite HI, nth_error_map in Y.
      rewrite (nth_error_nth' _ 0%nat) in Y by (rewrite seq_length; lia). rewrite seq_nth in Y by lia. cbn [option_map Nat.add] in Y. congruence. }
    destruct N1 as (l1 & X1 & I1). destruct N2 as (l2 & X2 & I2). unfold item. rewrite X1, X2. unfold bind, lift. rewrite I1, I2.
    change (getConstantDriver (sf_J s k / 10 ^ 6)) with (Ok (steady_scalar (sf_J s k / 10 ^ 6))). cbv iota beta. unfold setIECDriver, setCouplingDriver. rewrite E.
    pose proof (coupling_at (setIECDriverTop (steady_scalar (sf_J s k / 10 ^ 6))) (setIECDriverBottom (steady_scalar (sf_J s k / 10 ^ 6)))
      (set_l_IECTop (steady_scalar (sf_J s k / 10 ^ 6))) (set_l_IECBottom (steady_scalar (sf_J s k / 10 ^ 6))) (fun l => eq_refl) (fun l => eq_refl) k 0 (mapi (coupled_to s k) 0 ls)) as C.
    rewrite Nat.add_0_l in C. rewrite C.
    + cbv iota beta. rewrite IH.
      * f_equal. rewrite Nat.add_succ_comm. destruct j; reflexivity.
      * lia.
      * cbn [j_layers set_j_layers]. rewrite mapi_comp. apply mapi_ext. intros p x _. cbn [Nat.add]. unfold coupled_to.
        destruct (Nat.eqb_spec p k) as [->|N1].
        { destruct (Nat.ltb_spec k k) as [|_]; [lia|]. destruct (Nat.ltb_spec k (S k)) as [_|]; [|lia]. destruct k as [|q]; [destruct x; reflexivity|].
          destruct (Nat.ltb_spec q (S q)) as [_|]; [|lia]. destruct (Nat.ltb_spec q (S (S q))) as [_|]; [|lia]. destruct x; reflexivity. }
        destruct (Nat.eqb_spec p (k + 1)) as [->|N2].
        { destruct (Nat.ltb_spec (k + 1) k) as [|_]; [lia|]. destruct (Nat.ltb_spec (k + 1) (S k)) as [|_]; [lia|]. replace (k + 1)%nat with (S k) by lia.
          destruct (Nat.ltb_spec k (S k)) as [_|]; [|lia]. destruct x; reflexivity. }
        replace (Nat.ltb p (S k)) with (Nat.ltb p k) by (destruct (Nat.ltb_spec p k), (Nat.ltb_spec p (S k)); lia || reflexivity).
        destruct p as [|q]; [reflexivity|]. replace (Nat.ltb q (S k)) with (Nat.ltb q k) by (destruct (Nat.ltb_spec q k), (Nat.ltb_spec q (S k)); lia || reflexivity). reflexivity.
    + rewrite mapi_length, <- HI. clear. generalize 0%nat at 1. induction ls as [|l ls IH]; intros i; cbn [mapi map]; [reflexivity|]. f_equal. apply IH.
    + rewrite mapi_length. lia.
Qed.

(** ** The junction *)
Lemma stack_axis_eq s i : angle2vector (sf_theta s i) (sf_phi s i) 1 = stack_axis s i.
Proof. exact (easy_axis_eq (DomForm 0 (sf_K s) (sf_theta s) (sf_phi s) (sf_K s) 0 0 0 "" 0 0 0 false 0 0 0) i). Qed.
Lemma stack_axis_unit s i : Norm (stack_axis s i) = 1.
Proof. exact (easy_axis_unit (DomForm 0 (sf_K s) (sf_theta s) (sf_phi s) (sf_K s) 0 0 0 "" 0 0 0 false 0 0 0) i). Qed.

Definition fresh_layer (rng : nat -> nat -> R) (nsrc : nat -> nat -> nat -> cvec) (s : stack_form) (p : nat) : result layer :=
  Layer_plain (rng p) (nsrc p) ("layer_" ++ py_str p)%string (stack_axis s p) (stack_axis s p) (sf_Ms s p) (sf_thickness s p / 1000000000)
      (/ 10000000000000000) (Ten Zero Zero (CV 0 0 1)) (sf_alpha s p).
Lemma fresh_ok rng nsrc s p : exists l0, fresh_layer rng nsrc s p = Ok l0 /\ l_id l0 = lname p /\ l_IECTop l0 = steady_scalar 0 /\ l_IECBottom l0 = steady_scalar 0.
Proof.
  unfold fresh_layer, Layer_plain, mkLayer. rewrite vlength_Norm, stack_axis_unit. destruct (Req_EM_T 1 0) as [X|_]; [lra|]. eexists. split; [reflexivity|]. repeat split.
Qed.
Lemma strip_eq s i : RP 100 1 (-27 / 10) (-46 / 100) (-24 / 100) (sf_width s i / 10 ^ 6) (sf_length s i / 10 ^ 6) = strip s i.
Proof. unfold strip. f_equal; lra. Qed.
Lemma create_single_eq rng nsrc s i l0 : fresh_layer rng nsrc s i = Ok l0 ->
  create_single_layer rng nsrc s i = Ok (set_l_anisotropy (steady_scalar (sf_K s i * 1000)) l0, strip s i).
Proof.
  intros E. unfold create_single_layer. cbv zeta. rewrite stack_axis_eq, strip_eq. unfold fresh_layer in E. change (Ten (CV 0 0 0) (CV 0 0 0) (CV 0 0 1)) with (Ten Zero Zero (CV 0 0 1)).
  replace (sf_thickness s i / 10 ^ 9) with (sf_thickness s i / 1000000000) by (f_equal; ring). replace (/ 10 ^ 16) with (/ 10000000000000000) by (f_equal; ring).
  rewrite E. cbn [rbind]. replace (sf_K s i * 10 ^ 3) with (sf_K s i * 1000) by (f_equal; ring). reflexivity.
Qed.
Definition made (rng : nat -> nat -> R) (nsrc : nat -> nat -> nat -> cvec) (s : stack_form) (p : nat) (l0 : layer) : Prop := fresh_layer rng nsrc s p = Ok l0.
Lemma rmap_made rng nsrc s : forall is, exists l0s, Forall2 (made rng nsrc s) is l0s /\
  rmap (create_single_layer rng nsrc s) is = Ok (map (fun pl => (set_l_anisotropy (steady_scalar (sf_K s (fst pl) * 1000)) (snd pl), strip s (fst pl))) (combine is l0s)).
Proof.
  induction is as [|i is (l0s & F & E)]; [exists []; split; [constructor|reflexivity]|]. destruct (fresh_ok rng nsrc s i) as (l0 & H & _). exists (l0 :: l0s). split; [constructor; assumption|].
  cbn [rmap]. rewrite (create_single_eq _ _ _ _ _ H), E. reflexivity.
Qed.
Lemma F2_len {A B} (P : A -> B -> Prop) xs ys : Forall2 P xs ys -> length xs = length ys.
Proof. induction 1; cbn; congruence. Qed.
Lemma made_list rng nsrc s N l0s : Forall2 (made rng nsrc s) (seq 0 N) l0s ->
  map fst (map (fun pl => (set_l_anisotropy (steady_scalar (sf_K s (fst pl) * 1000)) (snd pl), strip s (fst pl))) (combine (seq 0 N) l0s)) =
    mapi (fun p l0 => set_l_anisotropy (steady_scalar (sf_K s p * 1000)) l0) 0 l0s /\
  map snd (map (fun pl => (set_l_anisotropy (steady_scalar (sf_K s (fst pl) * 1000)) (snd pl), strip s (fst pl))) (combine (seq 0 N) l0s)) = map (strip s) (seq 0 N).
Proof.
  revert l0s. generalize 0%nat. induction N as [|N IH]; intros a l0s F; cbn [seq] in F; inversion F as [|? l0 ? ls H F' E1 E2]; subst; [split; reflexivity|].
  cbn [seq combine map fst snd mapi]. destruct (IH (S a) ls F') as [I1 I2]. rewrite I1, I2. split; reflexivity.
Qed.
Lemma made_at rng nsrc s N l0s p l0 : Forall2 (made rng nsrc s) (seq 0 N) l0s -> nth_error l0s p = Some l0 -> (p < N)%nat /\ made rng nsrc s p l0.
Proof.
  intros F E. assert (L : (p < N)%nat) by (rewrite <- (seq_length N 0), (F2_len _ _ _ F); apply nth_error_Some; congruence). split; [exact L|].
  apply (F2_at _ _ _ F p p l0); [|exact E]. rewrite (nth_error_nth' _ 0%nat) by (rewrite seq_length; exact L). rewrite seq_nth by exact L. reflexivity.
Qed.
Lemma prepare_run rng nsrc s : (0 < sf_N s)%nat -> exists ls j, prepare_simulation rng nsrc s = Ok (j, map (strip s) (seq 0 (sf_N s))) /\ Junction_plain ls = Ok j /\ length ls = sf_N s /\
  forall p l, nth_error ls p = Some l -> stack_layer rng nsrc s p l.
Proof.
  intros HN. unfold prepare_simulation. destruct (rmap_made rng nsrc s (seq 0 (sf_N s))) as (l0s & F & E). rewrite E. cbn [rbind].
  destruct (made_list _ _ _ _ _ F) as [E1 E2]. rewrite E1, E2. set (a0s := mapi _ 0 l0s).
  pose proof (F2_len _ _ _ F) as L0. rewrite seq_length in L0.
  assert (L : length a0s = sf_N s) by (unfold a0s; rewrite mapi_length; congruence).
  assert (EJ : Junction_plain a0s = Ok (JN MR_NONE a0s 0 0 [] [] [] [] [] [] [] [] 0 "R")) by (destruct a0s; [cbn in L; lia|reflexivity]). rewrite EJ. cbn [rbind].
  assert (HI : map l_id a0s = map lname (seq 0 (length a0s))).
  { apply list_ext. intros p. rewrite !nth_error_map. unfold a0s. rewrite mapi_nth, mapi_length. destruct (nth_error l0s p) as [l0|] eqn:X.
    - destruct (made_at _ _ _ _ _ _ _ F X) as [Y M]. rewrite (nth_error_nth' _ 0%nat) by (rewrite seq_length; lia). rewrite seq_nth by lia. cbn [option_map Nat.add].
      destruct (fresh_ok rng nsrc s p) as (l0' & M' & I & _). unfold made in M. rewrite M in M'. injection M' as <-. f_equal. exact I.
    - apply nth_error_None in X. rewrite (proj2 (nth_error_None (seq 0 (length l0s)) p)) by (rewrite seq_length; lia). reflexivity. }
  assert (EC : a0s = mapi (coupled_to s 0) 0 a0s).
  { apply list_ext. intros p. rewrite mapi_nth. destruct (nth_error a0s p) as [l|] eqn:X; [|reflexivity]. cbn [option_map Nat.add]. f_equal. unfold coupled_to. destruct p, l; reflexivity. }
  rewrite (couple_all_eq s a0s HI (sf_N s - 1) 0 (JN MR_NONE a0s 0 0 [] [] [] [] [] [] [] [] 0 "R")) by (lia || exact EC).
  exists (mapi (coupled_to s (0 + (sf_N s - 1))) 0 a0s). eexists. split; [reflexivity|]. rewrite mapi_length. split; [|split; [exact L|]].
  - destruct a0s; [cbn in L; lia|reflexivity].
  - intros p l Hl. rewrite mapi_nth in Hl. unfold a0s in Hl. rewrite mapi_nth in Hl. destruct (nth_error l0s p) as [l0|] eqn:X; [|discriminate]. cbn [option_map Nat.add] in Hl. injection Hl as <-.
    destruct (made_at _ _ _ _ _ _ _ F X) as [Y M]. exists l0. split; [exact M|]. destruct (fresh_ok rng nsrc s p) as (l0' & M' & _ & IT & IB). unfold made in M. rewrite M in M'. injection M' as <-.
    unfold coupled_to. cbn [l_IECTop l_IECBottom set_l_anisotropy]. rewrite IT, IB. f_equal; [|f_equal].
    + unfold J_above. destruct (Nat.ltb_spec p (sf_N s - 1)) as [A|A], (Nat.ltb_spec (S p) (sf_N s)) as [B|B]; try lia; f_equal; lra.
    + unfold J_below. destruct p as [|q]; [reflexivity|]. destruct (Nat.ltb_spec q (sf_N s - 1)) as [A|A]; [f_equal; lra|lia].
Qed.
Lemma stack_layer_unique rng nsrc s p l l' : stack_layer rng nsrc s p l -> stack_layer rng nsrc s p l' -> l = l'.
Proof. intros (a & A & ->) (b & B & ->). rewrite A in B. injection B as <-. reflexivity. Qed.
Lemma prepare_none rng nsrc s : sf_N s = 0%nat -> prepare_simulation rng nsrc s = Err (Throw "Passed a zero length Layer vector!").
Proof. intros E. unfold prepare_simulation. rewrite E. reflexivity. Qed.
Lemma prepare_iff rng nsrc s j ps : prepare_simulation rng nsrc s = Ok (j, ps) <-> stack_of rng nsrc s j ps.
Proof.
  split.
  - intros E. destruct (Nat.eq_dec (sf_N s) 0) as [Z|Z]; [rewrite prepare_none in E by exact Z; discriminate|].
    destruct (prepare_run rng nsrc s ltac:(lia)) as (ls & j' & E' & A & B & C). rewrite E in E'. injection E' as <- ->. exists ls. auto.
  - intros (ls & A & B & C & ->). assert (HN : (0 < sf_N s)%nat) by (destruct ls; [discriminate|cbn in B; lia]).
    destruct (prepare_run rng nsrc s HN) as (ls' & j' & E' & A' & B' & C'). rewrite E'. f_equal. f_equal. assert (ls' = ls); [|congruence].
    apply list_ext. intros p. destruct (nth_error ls' p) as [l'|] eqn:X, (nth_error ls p) as [l|] eqn:Y.
    + f_equal. eapply stack_layer_unique; eauto.
    + apply nth_error_None in Y. assert (p < length ls')%nat by (apply nth_error_Some; congruence). lia.
    + apply nth_error_None in X. assert (p < length ls)%nat by (apply nth_error_Some; congruence). lia.
    + reflexivity.
Qed.
