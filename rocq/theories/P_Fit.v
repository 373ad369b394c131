(** Proofs about the fitting front end. *)
From Verif Require Import P_PyUtils P_SBResponse P_Resist.
From Verif Require Export S_Fit.
From Coq Require Import Psatz Permutation Ascii.
From Coq Require Import Cos_rel Rtrigo_alt.
Open Scope R_scope.
Open Scope st_scope.

(** ** Axes *)
Lemma deg90 : deg2rad 90 = PI / 2.
Proof. unfold deg2rad. field. Qed.
Lemma deg45 : deg2rad 45 = PI / 4.
Proof. unfold deg2rad. field. Qed.
Lemma deg0 : deg2rad 0 = 0.
Proof. unfold deg2rad. ring. Qed.
Lemma names_iff a : In a axis_names <-> exists v, get_axis_cvector a = Ok v.
Proof.
  unfold axis_names, get_axis_cvector. cbn [In]. split.
  - intros [<-|[<-|[<-|[<-|[<-|[<-|[]]]]]]]; eexists; reflexivity.
  - intros (v & E). repeat (match type of E with context [String.eqb a ?n] => destruct (String.eqb_spec a n) as [->|]; [tauto|] end). discriminate.
Qed.
Lemma angles_domain a : In a axis_names <-> exists p, get_axis_angles a = Ok p.
Proof.
  unfold axis_names, get_axis_angles. cbn [In]. split.
  - intros [<-|[<-|[<-|[<-|[<-|[<-|[]]]]]]]; eexists; reflexivity.
  - intros (v & E). repeat (match type of E with context [String.eqb a ?n] => destruct (String.eqb_spec a n) as [->|]; [tauto|] end). discriminate.
Qed.
Lemma sqrt2_half : sqrt 2 * (1 / sqrt 2) = 1.
Proof. field. apply Rgt_not_eq, sqrt_lt_R0. lra. Qed.
Lemma axis_direction a v theta phi : get_axis_cvector a = Ok v -> get_axis_angles a = Ok (theta, phi) -> angle2vector theta phi (Norm v) = v.
Proof.
  intros V A. assert (M : In a axis_names) by (apply names_iff; eauto). unfold axis_names in M. cbn [In] in M.
  assert (S1 : sqrt 1 = 1) by apply sqrt_1. assert (S2 : sqrt 2 * sqrt 2 = 2) by (apply sqrt_sqrt; lra). assert (S0 : 0 < sqrt 2) by (apply sqrt_lt_R0; lra).
  destruct M as [<-|[<-|[<-|[<-|[<-|[<-|[]]]]]]]; cbn in V, A; injection V as <-; injection A as <- <-; unfold angle2vector, trig_compute, Norm, Norm2, Dot; cbn [cx cy cz];
    rewrite ?deg90, ?deg45, ?deg0, ?sin_PI2, ?cos_PI2, ?sin_0, ?cos_0, ?sin_PI4, ?cos_PI4.
  1-3: replace (sqrt _) with 1 by (rewrite <- S1 at 1; f_equal; ring); f_equal; ring.
  all: replace (sqrt (_ + _ + _)) with (sqrt 2) by (f_equal; ring); f_equal; field; lra.
Qed.
Lemma axis_iff a x : get_axis a = Ok x <-> (a = "x"%string /\ x = xaxis) \/ (a = "y"%string /\ x = yaxis) \/ (a = "z"%string /\ x = zaxis).
Proof.
  unfold get_axis. destruct (String.eqb_spec a "x") as [->|N1]; [split; [intros E; injection E as <-; auto|intros [[_ ->]|[[? _]|[? _]]]; [reflexivity|discriminate|discriminate]]|].
  destruct (String.eqb_spec a "y") as [->|N2]; [split; [intros E; injection E as <-; auto|intros [[? _]|[[_ ->]|[? _]]]; [discriminate|reflexivity|discriminate]]|].
  destruct (String.eqb_spec a "z") as [->|N3]; [split; [intros E; injection E as <-; auto|intros [[? _]|[[? _]|[_ ->]]]; [discriminate|discriminate|reflexivity]]|].
  split; [discriminate|]. tauto.
Qed.

(** ** Groups *)
Lemma groupby_concat {A} (key : A -> R) l : concat (groupby key l) = l.
Proof.
  induction l as [|x l IH]; [reflexivity|]. cbn [groupby]. destruct (groupby key l) as [|[|y g] gs]; cbn in IH |- *; [rewrite IH; reflexivity|rewrite IH; reflexivity|].
  destruct (Req_EM_T (key x) (key y)); cbn; rewrite IH; reflexivity.
Qed.
Lemma groupby_runs {A} (key : A -> R) l : runs key (groupby key l).
Proof.
  induction l as [|x l IH]; [constructor|]. cbn [groupby]. destruct (groupby key l) as [|[|y g] gs]; [constructor; intros ? []|inversion IH|].
  destruct (Req_EM_T (key x) (key y)) as [E|E].
  - inversion IH as [|g0 x0 Hg|g0 x0 h y0 gs0 Hg Hne Hr]; subst.
    + constructor. intros z [<-|Z]; [auto|rewrite E; auto].
    + constructor; [intros z [<-|Z]; [auto|rewrite E; auto]|rewrite E; exact Hne|exact Hr].
  - constructor; [intros ? []|exact E|exact IH].
Qed.
Lemma runs_unique {A} (key : A -> R) gs : runs key gs -> groupby key (concat gs) = gs.
Proof.
  assert (ONE : forall g x rest, (forall z, In z g -> key z = key x) -> (match groupby key rest with (y :: _) :: _ => key x <> key y | _ => True end) -> groupby key (x :: g ++ rest) = (x :: g) :: groupby key rest).
  { induction g as [|z g IH]; intros x rest Hg Hr; cbn [app].
    - cbn [groupby]. destruct (groupby key rest) as [|[|y h] gs']; [reflexivity|reflexivity|]. destruct (Req_EM_T (key x) (key y)); [contradiction|reflexivity].
    - assert (EZ : key z = key x) by (apply Hg; left; reflexivity). change (groupby key (x :: z :: g ++ rest)) with (match groupby key (z :: g ++ rest) with (y :: h) :: gs' => if Req_EM_T (key x) (key y) then (x :: y :: h) :: gs' else [x] :: (y :: h) :: gs' | gs' => [x] :: gs' end).
      rewrite (IH z rest); [destruct (Req_EM_T (key x) (key z)); [reflexivity|congruence]|intros w W; rewrite EZ; apply Hg; right; exact W|destruct (groupby key rest) as [|[|y h] gs']; auto; rewrite EZ; exact Hr]. }
  induction 1 as [|g x Hg|g x h y gs Hg Hne Hr IH]; [reflexivity| |].
  - cbn [concat]. rewrite app_nil_r. rewrite <- (app_nil_r g) at 1. rewrite ONE; [reflexivity|exact Hg|exact I].
  - cbn [concat]. change ((x :: g) ++ (y :: h) ++ concat gs)%list with (x :: g ++ concat ((y :: h) :: gs))%list. rewrite ONE; [f_equal; exact IH|exact Hg|]. rewrite IH. exact Hne.
Qed.
Lemma runs_nonempty {A} (key : A -> R) gs g : runs key gs -> In g gs -> g <> [].
Proof. induction 1 as [|g0 x Hg|g0 x h y gs Hg Hne Hr IH]; intros M; [destruct M|destruct M as [<-|[]]; discriminate|destruct M as [<-|M]; [discriminate|exact (IH M)]]. Qed.

(** ** The error *)
Lemma fold_min l : forall x, let m := fold_left (fun m y => if Rlt_dec y m then y else m) l x in In m (x :: l) /\ forall y, In y (x :: l) -> m <= y.
Proof.
  induction l as [|a l IH]; intros x; cbn [fold_left].
  - split; [left; reflexivity|]. intros y [<-|[]]. lra.
  - destruct (Rlt_dec a x) as [L|L].
    + destruct (IH a) as [M B]. split; [right; exact M|]. intros y [<-|Y]; [assert (X := B a (or_introl eq_refl)); lra|exact (B y Y)].
    + destruct (IH x) as [M B]. split; [destruct M as [<-|M]; [left; reflexivity|right; right; exact M]|]. intros y [<-|[<-|Y]]; [apply B; left; reflexivity| |apply B; right; exact Y]. assert (X := B x (or_introl eq_refl)). lra.
Qed.
Lemma min_iff l m : py_min l = Ok m <-> In m l /\ forall y, In y l -> m <= y.
Proof.
  unfold py_min. destruct l as [|x l]; [split; [discriminate|intros [[] _]]|]. destruct (fold_min l x) as [M B]. split.
  - intros E. injection E as <-. auto.
  - intros [M' B']. f_equal. apply Rle_antisym; auto.
Qed.
Lemma contrib_iff t (g : list (R * R)) v : py_min (map (fun f_ => (t / 10 ^ 9 - snd f_) ^ 2) g) = Ok v <-> nearest_square (t / 10 ^ 9) (map snd g) v.
Proof.
  rewrite min_iff. unfold nearest_square. split; intros [M B]; split.
  - apply in_map_iff in M. destruct M as (p & <- & P). exists (snd p). split; [apply in_map, P|reflexivity].
  - intros f F. apply in_map_iff in F. destruct F as (p & <- & P). apply B, in_map_iff. exists p. auto.
  - destruct M as (f & F & ->). apply in_map_iff in F. destruct F as (p & <- & P). apply in_map_iff. exists p. auto.
  - intros y Y. apply in_map_iff in Y. destruct Y as (p & <- & P). apply B, in_map, P.
Qed.
Lemma nearest_exists t fs : fs <> [] -> exists v, nearest_square t fs v.
Proof.
  intros NE. destruct (py_min (map (fun f => (t - f) ^ 2) fs)) as [v|e] eqn:E; [|destruct fs; [contradiction|discriminate]]. exists v. apply min_iff in E. destruct E as [M B]. split.
  - apply in_map_iff in M. destruct M as (f & <- & F). eauto.
  - intros f F. apply B. apply in_map_iff. eauto.
Qed.
Lemma nearest_unique t fs v w : nearest_square t fs v -> nearest_square t fs w -> v = w.
Proof. intros [(f & F & ->) B] [(g & G & ->) C]. apply Rle_antisym; auto. Qed.
Lemma skipn_nth {A} (l : list A) : forall i t, nth_error l i = Some t -> skipn i l = t :: skipn (S i) l.
Proof. induction l as [|a l IH]; intros [|i] t T; cbn in T |- *; try discriminate; [injection T as ->; reflexivity|apply IH, T]. Qed.
Lemma loop_iff target groups : forall i mse m, mse_loop target i groups mse = Ok m <->
  (groups = [] \/ (i + length groups <= length target)%nat) /\ exists vs, Forall2 (fun p v => nearest_square (fst p / 10 ^ 9) (map snd (snd p)) v) (combine (skipn i target) groups) vs /\ m = mse + sum_of vs.
Proof.
  induction groups as [|g groups IH]; intros i mse m; cbn [mse_loop].
  - rewrite combine_nil. split.
    + intros E. injection E as <-. split; [auto|]. exists []. split; [constructor|cbn; ring].
    + intros [_ (vs & F & ->)]. inversion F. cbn. rewrite Rplus_0_r. reflexivity.
  - destruct (nth_error target i) as [t|] eqn:T.
    + assert (LT : (i < length target)%nat) by (apply nth_error_Some; congruence).
      rewrite (skipn_nth target i t T). cbn [combine length]. rewrite rbind_iff. split.
      * intros (c & C & E). apply contrib_iff in C. apply IH in E. destruct E as [L (vs & F & ->)]. split.
        -- right. destruct L as [->|L]; cbn; lia.
        -- exists (c :: vs). split; [constructor; [exact C|exact F]|cbn; ring].
      * intros [L (vs & F & ->)]. inversion F as [|p v ps vs' Hv Hvs]; subst. exists v. split; [apply contrib_iff; exact Hv|]. apply IH. split.
        -- destruct L as [L|L]; [discriminate|]. right. lia.
        -- exists vs'. split; [exact Hvs|cbn; ring].
    + apply nth_error_None in T. split; [discriminate|]. intros [[L|L] _]; [discriminate|cbn in L; lia].
Qed.
Lemma mse_iff target Hmag frequency r : compute_sb_mse target Hmag frequency = Ok r <->
  ((length frequency < length target)%nat /\ r = None) \/
  ((length target <= length frequency)%nat /\ exists groups m, concat groups = combine Hmag frequency /\ runs fst groups /\
   (length groups <= length target)%nat /\ total_error target (map (map snd) groups) m /\ r = Some m).
Proof.
  unfold compute_sb_mse, total_error.
  assert (MAPC : forall t (gs : list (list (R * R))) vs, Forall2 (fun p v => nearest_square (fst p / 10 ^ 9) (map snd (snd p)) v) (combine t gs) vs <-> Forall2 (fun p v => nearest_square (fst p / 10 ^ 9) (snd p) v) (combine t (map (map snd) gs)) vs).
  { induction t as [|a t IHt]; intros [|g gs] vs; cbn [combine map]; [split; intros F; inversion F; constructor..|]. split; intros F; inversion F as [|p v ps vs' Hv Hvs]; subst; constructor; [exact Hv|apply IHt, Hvs|exact Hv|apply IHt, Hvs]. }
  destruct (Nat.ltb_spec (length frequency) (length target)) as [L|L].
  - split; [intros E; injection E as <-; left; auto|]. intros [[_ ->]|[L' _]]; [reflexivity|lia].
  - rewrite rbind_iff. split.
    + intros (m & E & R). injection R as <-. right. split; [exact L|]. apply loop_iff in E. destruct E as [LE (vs & F & ->)]. exists (groupby fst (combine Hmag frequency)), (0 + sum_of vs).
      split; [apply groupby_concat|]. split; [apply groupby_runs|]. split; [destruct LE as [->|LE]; [cbn; lia|exact LE]|]. split; [|reflexivity]. exists vs. split; [apply MAPC; exact F|ring].
    + intros [[L' _]|[_ (gs & m & C & Rn & LG & (vs & F & ->) & ->)]]; [lia|]. exists (sum_of vs). split; [|reflexivity]. rewrite <- C, runs_unique by exact Rn. apply loop_iff. split; [right; exact LG|]. exists vs. split; [apply MAPC; exact F|ring].
Qed.
Lemma sweep_runs (table : list (R * list R)) : (forall p, In p table -> snd p <> []) -> neighbours_differ (map fst table) -> runs fst (map (fun p => map (fun f => (fst p / 10 ^ 3, f)) (snd p)) table).
Proof.
  induction table as [|p table IH]; intros NE ND; [constructor|]. cbn [map].
  destruct (snd p) as [|x g] eqn:Ep; [exfalso; apply (NE p); [left; reflexivity|exact Ep]|]. destruct table as [|q table].
  - cbn [map]. constructor. intros y Y. apply in_map_iff in Y. destruct Y as (f & <- & _). reflexivity.
  - assert (R := IH (fun a A => NE a (or_intror A)) (fun i Hi => ND (S i) (proj1 (Nat.succ_lt_mono _ _) Hi))). cbn [map] in R |- *.
    destruct (snd q) as [|y h] eqn:Eq; [exfalso; apply (NE q); [right; left; reflexivity|exact Eq]|]. cbn [map] in R |- *. constructor; [|cbn|exact R].
    + intros z Z. apply in_map_iff in Z. destruct Z as (f & <- & _). reflexivity.
    + assert (D := ND 0%nat). cbn in D. intros E. apply D; [lia|]. assert (fst p / (10 * (10 * (10 * 1))) * 1000 = fst q / (10 * (10 * (10 * 1))) * 1000) by (rewrite E; reflexivity). lra.
Qed.
Lemma sweep_rows_concat table : sweep_rows table = concat (map (fun p => map (fun f => (fst p / 10 ^ 3, f)) (snd p)) table).
Proof. unfold sweep_rows. apply flat_map_concat_map. Qed.
Lemma combine_rows (l : list (R * R)) : combine (map fst l) (map snd l) = l.
Proof. induction l as [|[a b] l IH]; [reflexivity|]. cbn. rewrite IH. reflexivity. Qed.
Lemma mse_sweep target table m : (forall p, In p table -> snd p <> []) -> neighbours_differ (map fst table) -> length target = length table ->
  (compute_sb_mse target (map fst (sweep_rows table)) (map snd (sweep_rows table)) = Ok (Some m) <-> total_error target (map snd table) m).
Proof.
  intros NE ND LT. set (gs := map (fun p => map (fun f => (fst p / 10 ^ 3, f)) (snd p)) table).
  assert (RG : runs fst gs) by (apply sweep_runs; assumption). assert (CG : concat gs = sweep_rows table) by (symmetry; apply sweep_rows_concat).
  assert (SG : map (map snd) gs = map snd table). { unfold gs. rewrite map_map. apply map_ext. intros p. rewrite map_map. cbn. apply map_id. }
  assert (LG : length gs = length table) by apply map_length.
  assert (LL : (length table <= length (sweep_rows table))%nat). { rewrite <- CG. unfold gs. clear -NE. induction table as [|p table IH]; [cbn; lia|]. cbn [map concat length]. rewrite app_length, map_length. destruct (snd p) eqn:E; [exfalso; apply (NE p); [left; reflexivity|exact E]|]. assert (H := IH (fun a A => NE a (or_intror A))). cbn [length]. lia. }
  rewrite mse_iff, map_length, combine_rows. split.
  - intros [[_ X]|[_ (gs' & m' & C & Rn & _ & T & E)]]; [discriminate|]. injection E as <-. assert (gs' = gs) by (rewrite <- (runs_unique fst gs' Rn), C, <- CG; apply runs_unique, RG). subst gs'. rewrite SG in T. exact T.
  - intros T. right. split; [lia|]. exists gs, m. rewrite SG. repeat split; auto. lia.
Qed.
Lemma nearest_nonneg t fs v : nearest_square t fs v -> 0 <= v.
Proof. intros [(f & _ & ->) _]. apply pow2_ge_0. Qed.
Lemma sum_nonneg vs : (forall v, In v vs -> 0 <= v) -> 0 <= sum_of vs /\ (sum_of vs = 0 -> forall v, In v vs -> v = 0).
Proof.
  induction vs as [|v vs IH]; intros P; cbn [sum_of]; [split; [lra|intros _ ? []]|]. destruct IH as [A B]; [intros; apply P; right; assumption|]. assert (0 <= v) by (apply P; left; reflexivity).
  split; [lra|]. intros E w [<-|W]; [lra|]. apply B; [lra|exact W].
Qed.
Lemma total_zero target lines m : total_error target lines m -> 0 <= m /\ (m = 0 <-> forall t l, In (t, l) (combine target lines) -> In (t / 10 ^ 9) l).
Proof.
  intros (vs & F & ->).
  assert (P : forall v, In v vs -> 0 <= v). { clear -F. induction F as [|p v ps vs Hv Hvs IH]; intros w W; [destruct W|]. destruct W as [<-|W]; [exact (nearest_nonneg _ _ _ Hv)|exact (IH w W)]. }
  destruct (sum_nonneg vs P) as [A B]. split; [exact A|]. split.
  - intros Z t l M. specialize (B Z). clear -F B M. induction F as [|p v ps vs Hv Hvs IH]; [destruct M|]. destruct M as [->|M].
    + destruct Hv as [(f & Hf & E) _]. cbn [fst snd] in *. assert (v = 0) by (apply B; left; reflexivity). assert (t / 10 ^ 9 - f = 0) by (apply Rsqr_0_uniq; unfold Rsqr; rewrite H in E; rewrite E; ring). assert (t / 10 ^ 9 = f) by (revert H0; generalize (t / 10 ^ 9); intros; lra). congruence.
    + apply IH; [intros; apply B; right; assumption|exact M].
  - intros Z. clear -F Z. induction F as [|p v ps vs Hv Hvs IH]; [reflexivity|]. cbn. rewrite IH by (intros; apply Z; right; assumption). destruct p as [t l].
    assert (I := Z t l (or_introl eq_refl)). assert (0 <= v) by (exact (nearest_nonneg _ _ _ Hv)). destruct Hv as [_ U]. specialize (U _ I). cbn [fst] in U. replace ((t / 10 ^ 9 - t / 10 ^ 9) ^ 2) with 0 in U by ring. lra.
Qed.
Lemma total_unique target lines m n : total_error target lines m -> total_error target lines n -> m = n.
Proof.
  intros (vs & F & ->) (ws & G & ->). f_equal. revert ws G. induction F as [|p v ps vs Hv Hvs IH]; intros ws G; inversion G as [|p' w ps' ws' Hw Hws]; subst; [reflexivity|]. f_equal; [exact (nearest_unique _ _ _ _ Hv Hw)|apply IH, Hws].
Qed.
Lemma total_exists target lines : (forall l, In l lines -> l <> []) -> exists m, total_error target lines m.
Proof.
  intros NE. unfold total_error. revert target. induction lines as [|l lines IH]; intros target.
  - rewrite combine_nil. exists 0, []. split; [constructor|reflexivity].
  - destruct target as [|t target]; [exists 0, []; split; [constructor|reflexivity]|]. destruct (IH (fun a A => NE a (or_intror A)) target) as (m & vs & F & ->). destruct (nearest_exists (t / 10 ^ 9) l (NE l (or_introl eq_refl))) as (v & V).
    eexists _, (v :: vs). split; [constructor; [exact V|exact F]|reflexivity].
Qed.

(** ** The sweep *)
Lemma field_solver_iff layers Js theta phi h s : newSolver layers Js (map (fun _ => 0) Js) (Some (VO theta phi h)) None None = Ok s <->
  (length layers = length Js + 1)%nat /\ Permutation (map sb_id layers) (seq 0 (length layers)) /\ s = field_solver layers Js theta phi h.
Proof.
  rewrite new_solver_iff, map_length. unfold field_solver. destruct s as [l j1 j2 H d n]. cbn. split.
  - intros (A & _ & _ & _ & P & -> & -> & -> & -> & -> & ->). auto.
  - intros (A & P & E). injection E as -> -> -> -> -> ->. repeat split; auto; discriminate.
Qed.
Lemma sweep_iff solve layers Js theta phi hvals : forall init rows, sweep solve layers Js theta phi hvals init = Ok rows <->
  exists outs, length outs = length hvals /\ (hvals <> [] -> (length layers = length Js + 1)%nat /\ Permutation (map sb_id layers) (seq 0 (length layers))) /\
  (forall k, (k < length hvals)%nat -> solve (field_solver layers Js theta phi (nth k hvals 0)) (sweep_start init outs k) = Ok (nth k outs ([], []))) /\
  rows = sweep_rows (combine hvals (map snd outs)).
Proof.
  induction hvals as [|h hvals IH]; intros init rows; cbn [sweep].
  - split.
    + intros E. injection E as <-. exists []. repeat split; auto; try contradiction. cbn. intros; lia.
    + intros (outs & _ & _ & _ & ->). reflexivity.
  - rewrite rbind_iff. setoid_rewrite field_solver_iff. split.
    + intros (s & (L & P & ->) & E). apply rbind_iff in E. destruct E as (out & So & E). apply rbind_iff in E. destruct E as (rs & Er & E). injection E as <-. apply IH in Er.
      destruct Er as (outs & Lo & _ & F & ->). exists (out :: outs). cbn [length map combine]. split; [lia|]. split; [auto|]. split; [|reflexivity].
      intros [|k] Hk; [exact So|]. specialize (F k ltac:(lia)). cbn [nth sweep_start]. destruct k as [|k]; exact F.
    + intros (outs & Lo & C & F & ->). destruct outs as [|out outs]; [discriminate|]. destruct C as [L P]; [discriminate|]. eexists. split; [repeat split; eassumption|].
      apply rbind_iff. exists out. split; [exact (F 0%nat ltac:(cbn; lia))|]. apply rbind_iff. exists (sweep_rows (combine hvals (map snd outs))). split; [|reflexivity].
      apply IH. exists outs. cbn in Lo. split; [lia|]. split; [auto|]. split; [|reflexivity]. intros k Hk. specialize (F (S k) ltac:(cbn; lia)). cbn [nth sweep_start] in F. destruct k as [|k]; exact F.
Qed.
Lemma theta_zero a theta phi : get_axis_angles a = Ok (theta, phi) -> (theta = 0 <-> a = "z"%string).
Proof.
  intros A. assert (M : In a axis_names) by (apply angles_domain; eauto). unfold axis_names in M. cbn [In] in M.
  destruct M as [<-|[<-|[<-|[<-|[<-|[<-|[]]]]]]]; cbn in A; injection A as <- <-; split; intros E; try reflexivity; try discriminate; lra.
Qed.
Lemma layer_iff least i t a K Ms l p : fit_layer least i t a K Ms = Ok (l, p) <-> (i <= 9)%nat /\ exists theta phi, get_axis_angles a = Ok (theta, phi) /\ p = [deg2rad theta; deg2rad phi] /\
  exists Ks Kv, ((a = "z"%string /\ Ks = K * 1000 /\ Kv = least) \/ (a <> "z"%string /\ Ks = least /\ Kv = K * 1000)) /\
  l = LayerSB i (t / 10 ^ 9) (VO 0 (deg2rad phi) Kv) Ks (Ms / mu0) None (VO 0 0 1) None.
Proof.
  unfold fit_layer. rewrite rbind_iff. setoid_rewrite (surjective_pairing (A := R) (B := R)). replace (10 ^ 3) with 1000 by ring. split.
  - intros ((theta & phi) & A & E). cbn [fst snd] in E. destruct (Req_EM_T theta 0) as [Z|Z]; apply rbind_iff in E; destruct E as (l' & E & X); injection X as <- <-; apply new_layer_iff in E;
      destruct E as (Hi & E1 & E2 & E3 & E4 & E5 & E6 & E7 & E8); (split; [exact Hi|]); exists theta, phi; (split; [exact A|]); (split; [reflexivity|]).
    + exists (K * 1000), least. split; [left; split; [apply (theta_zero _ _ _ A), Z|auto]|destruct l'; cbn -[pow] in *; unfold default_Ndemag in *; subst; rewrite deg0; reflexivity].
    + exists least, (K * 1000). split; [right; split; [intros X; apply Z, (theta_zero _ _ _ A), X|auto]|destruct l'; cbn -[pow] in *; unfold default_Ndemag in *; subst; rewrite deg0; reflexivity].
  - intros (Hi & theta & phi & A & -> & Ks & Kv & C & ->). exists (theta, phi). split; [exact A|]. cbn [fst snd] in A |- *. unfold newLayerSB. destruct (Nat.ltb_spec 9 i) as [X|_]; [lia|].
    destruct (Req_EM_T theta 0) as [Z|Z]; destruct C as [(Ha & -> & ->)|(Ha & -> & ->)]; try (exfalso; apply (theta_zero _ _ _ A) in Ha; contradiction); try (exfalso; apply (theta_zero _ _ _ A) in Z; contradiction); cbn -[pow]; rewrite deg0; reflexivity.
Qed.
Lemma layer_projection least i t K Ms : (i <= 9)%nat -> exists l m, fit_layer least i t "x" K Ms = Ok (l, [deg2rad 90; deg2rad 0]) /\ fit_layer least i t "xz" K Ms = Ok (l, [deg2rad 45; deg2rad 0]) /\
  fit_layer least i t "y" K Ms = Ok (m, [deg2rad 90; deg2rad 90]) /\ fit_layer least i t "yz" K Ms = Ok (m, [deg2rad 45; deg2rad 90]).
Proof.
  intros Hi. exists (LayerSB i (t / 10 ^ 9) (VO 0 (deg2rad 0) (K * 1000)) least (Ms / mu0) None (VO 0 0 1) None), (LayerSB i (t / 10 ^ 9) (VO 0 (deg2rad 90) (K * 1000)) least (Ms / mu0) None (VO 0 0 1) None).
  repeat split; apply layer_iff; (split; [exact Hi|]); eexists _, _; (split; [reflexivity|]); (split; [reflexivity|]); exists least, (K * 1000); (split; [right; split; [discriminate|auto]|reflexivity]).
Qed.

(** ** The direction of the field *)
Lemma cos_poly a : cos_approx a 3 = 1 - a ^ 2 / 2 + a ^ 4 / 24 - a ^ 6 / 720 /\ cos_approx a 4 = 1 - a ^ 2 / 2 + a ^ 4 / 24 - a ^ 6 / 720 + a ^ 8 / 40320.
Proof.
  assert (F : INR (fact 0) = 1 /\ INR (fact 2) = 2 /\ INR (fact 4) = 24 /\ INR (fact 6) = 720 /\ INR (fact 8) = 40320) by (rewrite !INR_IZR_INZ; repeat split; apply f_equal; vm_compute; reflexivity).
  destruct F as (F0 & F2 & F4 & F6 & F8). unfold cos_approx, cos_term. cbn [sum_f_R0 Nat.mul Nat.add]. rewrite F0, F2, F4, F6, F8. split; field.
Qed.
Lemma PI_below : PI < 31578 / 10000.
Proof.
  destruct (Rlt_or_le PI (31578 / 10000)) as [|C]; [assumption|]. exfalso. set (a := 31578 / 20000).
  destruct (cos_bound a 1) as [_ U]; [unfold a; lra|unfold a; lra|]. assert (P : 0 <= cos a) by (apply cos_ge_0; unfold a; lra).
  change (2 * (1 + 1))%nat with 4%nat in U. rewrite (proj2 (cos_poly a)) in U. unfold a in *. lra.
Qed.
Lemma PI_above : 3051 / 1000 < PI.
Proof.
  destruct (Rlt_or_le (3051 / 1000) PI) as [|C]; [assumption|]. exfalso. assert (L := PI2_3_2). set (a := PI / 2) in *.
  destruct (cos_bound a 1) as [U _]; [unfold a in *; lra|unfold a in *; lra|]. replace (cos a) with 0 in U by (symmetry; apply cos_PI2). change (2 * 1 + 1)%nat with 3%nat in U. rewrite (proj1 (cos_poly a)) in U.
  assert (A : a <= 15255 / 10000) by (unfold a; lra). set (u := a ^ 2). replace (a ^ 4) with (u ^ 2) in U by (unfold u; ring). replace (a ^ 6) with (u ^ 3) in U by (unfold u; ring). fold u in U.
  assert (Hu : 225 / 100 <= u <= 233 / 100) by (unfold u; nra). clearbody u. nra.
Qed.
Lemma cos_90 : cos 90 <> 0.
Proof.
  intros E. apply cos_eq_0_0 in E. destruct E as (k & E). assert (A := PI_below). assert (B := PI_above).
  destruct (Z.le_gt_cases k 28) as [K|K]; [apply IZR_le in K; nra|]. assert (K' : (29 <= k)%Z) by lia. apply IZR_le in K'. nra.
Qed.
Lemma field_tilted a theta phi h : In a ["x"; "y"; "xy"]%string -> get_axis_angles a = Ok (theta, phi) -> h <> 0 -> cz (get_cartesian (VO theta phi h)) <> 0.
Proof.
  intros M A Hh. cbn [In] in M. unfold get_cartesian, from_spherical. cbn.
  assert (theta = 90) by (destruct M as [<-|[<-|[<-|[]]]]; cbn in A; injection A as <- <-; reflexivity). subst theta. assert (C := cos_90). nra || (apply Rmult_integral_contrapositive_currified; assumption).
Qed.

(** ** The search space *)
Lemma config_step s k cfg fixed acc : config_param s k (cfg, fixed) = Ok acc <-> (exists b, to_search s k b /\ acc = ((cfg ++ [b])%list, fixed)) \/ (exists v, held s k v /\ acc = (cfg, (fixed ++ [(k, v)])%list)).
Proof.
  unfold config_param, to_search, held. destruct (ff_check s k) eqn:C.
  - rewrite rbind_iff. split.
    + intros (v & L & E). injection E as <-. right. exists v. split; [split; [exact L|discriminate]|reflexivity].
    + intros [(b & (X & _) & _)|(v & (L & _) & ->)]; [discriminate|]. eauto.
  - rewrite rbind_iff. split.
    + intros (u & U & E). apply rbind_iff in E. destruct E as (l & L & E). destruct (Req_EM_T u l) as [->|N].
      * injection E as <-. right. exists l. auto.
      * left. exists (Bounds k l u). split; [split; [reflexivity|]; exists l, u; auto|]. rewrite L, U in E. cbn in E. destruct (Rlt_dec u l); injection E as <-; reflexivity.
    + intros [(b & (_ & l & u & L & U & N & ->) & ->)|(v & (L & U) & ->)].
      * exists u. split; [exact U|]. rewrite L. cbn. destruct (Req_EM_T u l) as [E|_]; [congruence|]. rewrite U. cbn. destruct (Rlt_dec u l); reflexivity.
      * exists v. split; [auto|]. rewrite L. cbn. destruct (Req_EM_T v v); [reflexivity|contradiction].
Qed.
Lemma config_loop s ks : forall c0 f0 cfg fixed, config_params s ks (c0, f0) = Ok (cfg, fixed) <-> exists c f, spaced s ks c f /\ cfg = (c0 ++ c)%list /\ fixed = (f0 ++ f)%list.
Proof.
  induction ks as [|k ks IH]; intros c0 f0 cfg fixed; cbn [config_params].
  - split.
    + intros E. injection E as <- <-. exists [], []. rewrite !app_nil_r. repeat split. constructor.
    + intros (c & f & S & -> & ->). inversion S. rewrite !app_nil_r. reflexivity.
  - rewrite rbind_iff. split.
    + intros (acc & A & E). apply config_step in A. destruct A as [(b & T & ->)|(v & T & ->)]; apply IH in E; destruct E as (c & f & S & -> & ->).
      * exists (b :: c), f. rewrite <- app_assoc. repeat split. constructor; assumption.
      * exists c, ((k, v) :: f). rewrite <- app_assoc. repeat split. constructor; assumption.
    + intros (c & f & S & -> & ->). inversion S as [|k' ks' b c' f' T S'|k' ks' v c' f' T S']; subst.
      * eexists. split; [apply config_step; left; eauto|]. apply IH. exists c', f. rewrite <- app_assoc. auto.
      * eexists. split; [apply config_step; right; eauto|]. apply IH. exists c, f'. rewrite <- app_assoc. auto.
Qed.
Lemma config_iff s cfg fixed : get_config s = Ok (cfg, fixed) <-> spaced s (config_names (ff_N s)) cfg fixed.
Proof.
  unfold get_config. rewrite config_loop. split; [intros (c & f & S & -> & ->); exact S|]. intros S. exists cfg, fixed. auto.
Qed.
Lemma config_names_in N k : In k (config_names N) <-> fit_names N k.
Proof.
  unfold config_names, fit_names. rewrite in_flat_map. destruct k as [p i]. cbn [fst snd]. split.
  - intros (j & J & I). apply in_seq in J. apply in_flat_map in I. destruct I as (q & Q & I). cbn [In] in Q.
    destruct Q as [<-|[<-|[<-|[]]]]; cbn in I; try (destruct I as [E|[]]; injection E as <- <-; split; [lia|]; auto; fail).
    destruct (Nat.leb_spec (N - 1) j) as [L|L]; cbn in I; [destruct I|]. destruct I as [E|[]]. injection E as <- <-. split; [lia|]. right; right. split; [reflexivity|lia].
  - intros [L C]. exists i. split; [apply in_seq; lia|]. apply in_flat_map. exists p. destruct C as [->|[->|[-> C]]]; (split; [cbn; auto|]); cbn; auto. destruct (Nat.leb_spec (N - 1) i) as [X|X]; cbn; [lia|auto].
Qed.
Lemma nodup_app_disjoint {A} (l m : list A) : NoDup l -> NoDup m -> (forall x, In x l -> In x m -> False) -> NoDup (l ++ m).
Proof.
  induction l as [|x l IH]; intros L M D; [exact M|]. inversion L; subst. cbn. constructor; [|apply IH; auto; intros y Y; apply D; right; exact Y].
  intros I. apply in_app_iff in I. destruct I as [I|I]; [contradiction|]. apply (D x); [left; reflexivity|exact I].
Qed.
Lemma nodup_flat {A B} (f : A -> list B) (key : B -> A) l : NoDup l -> (forall x, NoDup (f x)) -> (forall x y, In y (f x) -> key y = x) -> NoDup (flat_map f l).
Proof.
  intros L F K. induction L as [|x l X L IH]; [constructor|]. cbn. apply nodup_app_disjoint; [apply F|exact IH|]. intros y Y I. apply in_flat_map in I. destruct I as (z & Z & I). apply K in Y. apply K in I. congruence.
Qed.
Lemma config_names_nodup N : NoDup (config_names N).
Proof.
  unfold config_names. apply (nodup_flat _ snd); [apply seq_NoDup| |].
  - intros i. apply (nodup_flat _ fst).
    + repeat constructor; cbn; intuition discriminate.
    + intros p. destruct (_ && _)%bool; repeat constructor. intros [].
    + intros p k. destruct (_ && _)%bool; [intros []|intros [<-|[]]; reflexivity].
  - intros i k I. apply in_flat_map in I. destruct I as (p & _ & I). destruct (_ && _)%bool; [destruct I|]. destruct I as [<-|[]]. reflexivity.
Qed.
Lemma spaced_names s ks cfg fixed : spaced s ks cfg fixed -> Permutation ks (map bd_name cfg ++ map fst fixed).
Proof.
  induction 1 as [|k ks b cfg fixed T S IH|k ks v cfg fixed T S IH]; cbn; [constructor| |].
  - destruct T as (_ & l & u & _ & _ & _ & ->). cbn. constructor. exact IH.
  - apply Permutation_cons_app. exact IH.
Qed.
Lemma spaced_each s ks cfg fixed : spaced s ks cfg fixed -> (forall b, In b cfg -> to_search s (bd_name b) b) /\ (forall k v, In (k, v) fixed -> held s k v).
Proof.
  induction 1 as [|k ks b cfg fixed T S [A B]|k ks v cfg fixed T S [A B]]; split; cbn; try tauto.
  - intros b' [<-|I]; [destruct T as (C & l & u & L & U & N & ->); cbn; split; eauto 8|auto].
  - intros k' v' [E|I]; [injection E as <- <-; exact T|auto].
Qed.
Lemma lookup_in d k v : lookup k d = Ok v -> In (k, v) d.
Proof.
  induction d as [|[k' w] d IH]; cbn; [discriminate|]. destruct (param_eqb k' k) eqn:E; [|auto].
  intros X. injection X as <-. unfold param_eqb in E. apply andb_prop in E. destruct E as [E1 E2]. apply String.eqb_eq in E1. apply Nat.eqb_eq in E2. left. destruct k', k. cbn in *. congruence.
Qed.
Lemma param_eqb_refl k : param_eqb k k = true.
Proof. unfold param_eqb. rewrite String.eqb_refl, Nat.eqb_refl. reflexivity. Qed.
Lemma lookup_total d k : In k (map fst d) -> exists v, lookup k d = Ok v.
Proof.
  induction d as [|[k' w] d IH]; cbn; [intros []|]. intros [<-|I]; [rewrite param_eqb_refl; eauto|]. destruct (param_eqb k' k); eauto.
Qed.
Lemma nodup_value {A B} (d : list (A * B)) k v w : NoDup (map fst d) -> In (k, v) d -> In (k, w) d -> v = w.
Proof.
  induction d as [|[a b] d IH]; cbn; intros N V W; [destruct V|]. inversion N; subst. destruct V as [V|V], W as [W|W].
  - congruence.
  - injection V as -> ->. exfalso. apply H1. apply (in_map fst) in W. exact W.
  - injection W as -> ->. exfalso. apply H1. apply (in_map fst) in V. exact V.
  - auto.
Qed.
Lemma lookup_iff d k v : NoDup (map fst d) -> (lookup k d = Ok v <-> In (k, v) d).
Proof.
  intros N. split; [apply lookup_in|]. intros I. destruct (lookup_total d k) as (w & W); [apply (in_map fst) in I; exact I|]. rewrite W. f_equal. apply (nodup_value d k); auto. apply lookup_in, W.
Qed.
Lemma rmap_seq {A} (f : nat -> result A) d : forall n a ys, rmap f (seq a n) = Ok ys <-> length ys = n /\ forall i, (i < n)%nat -> f (a + i)%nat = Ok (nth i ys d).
Proof.
  intros n. induction n as [|n IH]; intros a ys; cbn [seq].
  - rewrite rmap_iff. split; [intros F; inversion F; split; [reflexivity|intros; lia]|intros [L _]; destruct ys; [constructor|discriminate]].
  - rewrite rmap_iff. split.
    + intros F. inversion F as [|x y xs ys' H F']; subst. apply rmap_iff, IH in F'. destruct F' as [L G]. split; [cbn; lia|]. intros [|i] Hi; [rewrite Nat.add_0_r; exact H|]. cbn. rewrite <- (G i) by lia. f_equal. lia.
    + intros [L G]. destruct ys as [|y ys]; [discriminate|]. cbn in L. constructor; [specialize (G 0%nat ltac:(lia)); rewrite Nat.add_0_r in G; exact G|]. apply rmap_iff, IH. split; [lia|]. intros i Hi. specialize (G (S i) ltac:(lia)). cbn in G. rewrite <- G. f_equal. lia.
Qed.
Lemma kwargs_iff d N J K Ms : NoDup (map fst d) -> (kwargs_to_list d N = Ok (J, K, Ms) <->
  (length J = N - 1)%nat /\ length K = N /\ length Ms = N /\ (forall i, (i + 1 < N)%nat -> In (("J"%string, i), nth i J 0) d) /\
  (forall i, (i < N)%nat -> In (("K"%string, i), nth i K 0) d) /\ (forall i, (i < N)%nat -> In (("Ms"%string, i), nth i Ms 0) d)).
Proof.
  intros ND. unfold kwargs_to_list. rewrite rbind_iff. split.
  - intros (J' & EJ & E). apply rbind_iff in E. destruct E as (K' & EK & E). apply rbind_iff in E. destruct E as (M' & EM & E). injection E as -> -> ->.
    apply (rmap_seq _ 0) in EJ, EK, EM. destruct EJ as [LJ J1], EK as [LK K1], EM as [LM M1]. repeat split; auto; intros i Hi; apply lookup_iff; auto; [apply J1; lia|apply K1; lia|apply M1; lia].
  - intros (LJ & LK & LM & J1 & K1 & M1). exists J. split; [apply (rmap_seq _ 0); split; [exact LJ|intros i Hi; apply lookup_iff; auto; apply J1; lia]|].
    apply rbind_iff. exists K. split; [apply (rmap_seq _ 0); split; [exact LK|intros i Hi; apply lookup_iff; auto]|].
    apply rbind_iff. exists Ms. split; [apply (rmap_seq _ 0); split; [exact LM|intros i Hi; apply lookup_iff; auto]|]. reflexivity.
Qed.
Lemma kwargs_total s cfg fixed x : get_config s = Ok (cfg, fixed) -> Permutation (map fst x) (map bd_name cfg) ->
  NoDup (map fst (x ++ fixed)) /\ exists J K Ms, kwargs_to_list (x ++ fixed) (ff_N s) = Ok (J, K, Ms).
Proof.
  intros C P. apply config_iff in C. assert (Q := spaced_names _ _ _ _ C). assert (Q' : Permutation (config_names (ff_N s)) (map fst (x ++ fixed))). { rewrite map_app. eapply perm_trans; [exact Q|]. apply Permutation_app_tail, Permutation_sym, P. }
  assert (ND : NoDup (map fst (x ++ fixed))) by (exact (Permutation_NoDup Q' (config_names_nodup _))). split; [exact ND|].
  assert (T : forall k, fit_names (ff_N s) k -> exists v, lookup k (x ++ fixed) = Ok v). { intros k F. apply lookup_total. apply (Permutation_in _ Q'), config_names_in, F. }
  assert (M : forall (p : string) n, (forall i, (i < n)%nat -> fit_names (ff_N s) (p, i)) -> exists l, rmap (fun i => lookup (p, i) (x ++ fixed)) (seq 0 n) = Ok l).
  { intros p n F. assert (E : forall b m, (b + m <= n)%nat -> exists l, rmap (fun i => lookup (p, i) (x ++ fixed)) (seq b m) = Ok l).
    { intros b m. revert b. induction m as [|m IH]; intros b L; [exists []; reflexivity|]. destruct (T (p, b)) as (v & V); [apply F; lia|]. destruct (IH (S b) ltac:(lia)) as (l & E). exists (v :: l). apply rmap_iff. cbn [seq]. constructor; [exact V|apply rmap_iff, E]. }
    apply E. lia. }
  destruct (M "J"%string (ff_N s - 1)%nat) as (J & EJ); [intros i Hi; split; cbn; [lia|right; right; split; [reflexivity|lia]]|].
  destruct (M "K"%string (ff_N s)) as (K & EK); [intros i Hi; split; cbn; auto|]. destruct (M "Ms"%string (ff_N s)) as (Ms & EM); [intros i Hi; split; cbn; auto|].
  exists J, K, Ms. unfold kwargs_to_list. rewrite EJ. cbn [rbind]. rewrite EK. cbn [rbind]. rewrite EM. reflexivity.
Qed.
Lemma item_iff {A} (l : list A) i x d : item l i = Ok x <-> (i < length l)%nat /\ x = nth i l d.
Proof.
  unfold item. destruct (nth_error l i) as [y|] eqn:E.
  - assert (i < length l)%nat by (apply nth_error_Some; congruence). apply (nth_error_nth _ _ d) in E. split; [intros X; injection X as <-; auto|intros [_ ->]; congruence].
  - apply nth_error_None in E. split; [discriminate|]. intros [L _]. lia.
Qed.
Lemma layers_iff least N th ax K Ms ls d : fit_layers least N th ax K Ms = Ok ls <-> length ls = N /\ forall i, (i < N)%nat -> (i < length th)%nat /\ (i < length ax)%nat /\ (i < length K)%nat /\ (i < length Ms)%nat /\
  fit_layer least i (nth i th 0) (nth i ax ""%string) (nth i K 0) (nth i Ms 0) = Ok (nth i ls d).
Proof.
  unfold fit_layers. rewrite (rmap_seq _ d). split; intros [L F]; (split; [exact L|]); intros i Hi; specialize (F i Hi); cbn [Nat.add] in *.
  - apply rbind_iff in F. destruct F as (t & T & F). apply rbind_iff in F. destruct F as (a & A & F). apply rbind_iff in F. destruct F as (k & K1 & F). apply rbind_iff in F. destruct F as (m & M & F).
    apply (item_iff _ _ _ 0) in T, K1, M. apply (item_iff _ _ _ ""%string) in A. destruct T as [? ->], A as [? ->], K1 as [? ->], M as [? ->]. auto.
  - destruct F as (T & A & K1 & M & F). apply rbind_iff. eexists. split; [apply (item_iff _ _ _ 0); eauto|]. apply rbind_iff. eexists. split; [apply (item_iff _ _ _ ""%string); eauto|]. apply rbind_iff. eexists. split; [apply (item_iff _ _ _ 0); eauto|].
    apply rbind_iff. eexists. split; [apply (item_iff _ _ _ 0); eauto|]. exact F.
Qed.
Lemma couplings J n : length J = n -> rmap (fun i => j <-- item J i ;; Ok (j / 10 ^ 6)) (seq 0 n) = Ok (map (fun j => j / 10 ^ 6) J).
Proof.
  intros L. apply (rmap_seq _ (0 / 10 ^ 6)). rewrite map_length. split; [exact L|]. intros i Hi. cbn [Nat.add]. unfold item. rewrite (nth_error_nth' J 0) by lia. cbn [rbind]. f_equal. rewrite (map_nth (fun j => j / 10 ^ 6) J 0 i). reflexivity.
Qed.
Lemma wrapper_iff solve hvals N th ax H kw rows d : simulate_sb_wrapper solve hvals N th ax H kw = Ok rows <->
  exists J K Ms ls theta phi, kwargs_to_list kw N = Ok (J, K, Ms) /\ length ls = N /\
  (forall i, (i < N)%nat -> (i < length th)%nat /\ (i < length ax)%nat /\ fit_layer 1 i (nth i th 0) (nth i ax ""%string) (nth i K 0) (nth i Ms 0) = Ok (nth i ls d)) /\
  get_axis_angles H = Ok (theta, phi) /\ sweep solve (map fst ls) (map (fun j => j / 10 ^ 6) J) theta phi hvals (concat (map snd ls)) = Ok rows.
Proof.
  assert (LEN : forall J K Ms, kwargs_to_list kw N = Ok (J, K, Ms) -> length J = (N - 1)%nat /\ length K = N /\ length Ms = N).
  { intros J K Ms E. unfold kwargs_to_list in E. apply rbind_iff in E. destruct E as (J' & EJ & E). apply rbind_iff in E. destruct E as (K' & EK & E). apply rbind_iff in E. destruct E as (M' & EM & E). injection E as -> -> ->.
    apply (rmap_seq _ 0) in EJ, EK, EM. tauto. }
  unfold simulate_sb_wrapper. rewrite rbind_iff. split.
  - intros (((J & K) & Ms) & E0 & E). destruct (LEN _ _ _ E0) as (LJ & LK & LM). apply rbind_iff in E. destruct E as (ls & El & E). rewrite (couplings J _ LJ) in E. cbn [rbind] in E. apply rbind_iff in E. destruct E as ((theta & phi) & Eh & E).
    apply (layers_iff _ _ _ _ _ _ _ d) in El. destruct El as [L F]. exists J, K, Ms, ls, theta, phi. repeat split; auto; intros; apply F; assumption.
  - intros (J & K & Ms & ls & theta & phi & E0 & L & F & Eh & E). exists (J, K, Ms). split; [exact E0|]. destruct (LEN _ _ _ E0) as (LJ & LK & LM). apply rbind_iff. exists ls. split.
    + apply (layers_iff _ _ _ _ _ _ _ d). split; [exact L|]. intros i Hi. destruct (F i Hi) as (A & B & C). repeat split; auto; lia.
    + rewrite (couplings J _ LJ). cbn [rbind]. rewrite Eh. exact E.
Qed.

(** ** Text *)
Lemma no_blank_cons c w : no_blank (String c w) <-> is_space c = false /\ no_blank w.
Proof.
  unfold no_blank. split; [intros H; split; [exact (H 0%nat c eq_refl)|intros i; exact (H (S i))]|]. intros [A B] [|i] x E; cbn in E; [injection E as <-; exact A|eauto].
Qed.
Lemma no_blank_app v w : no_blank v -> no_blank w -> no_blank (v ++ w).
Proof. induction v as [|c v IH]; cbn; [auto|]. rewrite !no_blank_cons. tauto. Qed.
Lemma append_assoc (a b c : string) : ((a ++ b) ++ c = a ++ (b ++ c))%string.
Proof. induction a as [|x a IH]; cbn; [reflexivity|rewrite IH; reflexivity]. Qed.
Lemma append_nil (a : string) : (a ++ "" = a)%string.
Proof. induction a as [|x a IH]; cbn; [reflexivity|rewrite IH; reflexivity]. Qed.
Lemma words_written s : forall cur, no_blank cur -> written (split_words s cur) (cur ++ s).
Proof.
  induction s as [|c s IH]; intros cur NB; cbn [split_words].
  - destruct (String.eqb_spec cur "") as [->|N]; [constructor|]. apply (Written_word cur [] ""%string); auto; [exact I|constructor].
  - destruct (is_space c) eqn:C.
    + assert (W : written (split_words s "") (String c s)) by (constructor; [exact C|]; apply (IH ""%string); intros i x X; destruct i; discriminate).
      destruct (String.eqb_spec cur "") as [->|N]; [exact W|]. constructor; auto.
    + replace (cur ++ String c s)%string with ((cur ++ String c "") ++ s)%string by (rewrite append_assoc; reflexivity). apply IH. apply no_blank_app; [exact NB|]. apply no_blank_cons. split; [exact C|]. intros i x X; destruct i; discriminate.
Qed.
Lemma words_skip w : forall s cur, no_blank w -> split_words (w ++ s) cur = split_words s (cur ++ w).
Proof.
  induction w as [|c w IH]; intros s cur NB; cbn [append]; [rewrite append_nil; reflexivity|]. apply no_blank_cons in NB. destruct NB as [C NB]. cbn [split_words]. rewrite C, IH by exact NB. rewrite append_assoc. reflexivity.
Qed.
Lemma words_of ws s : written ws s -> split_words s "" = ws.
Proof.
  induction 1 as [|c s ws C W IH|w ws s NE NB BN W IH]; [reflexivity|cbn; rewrite C; exact IH|]. rewrite words_skip by exact NB. cbn [append]. destruct s as [|c s].
  - cbn in IH |- *. destruct (String.eqb_spec w "") as [->|_]; [contradiction|]. rewrite IH. reflexivity.
  - cbn in BN. cbn [split_words] in IH |- *. rewrite BN in *. cbn in IH. destruct (String.eqb_spec w "") as [->|_]; [contradiction|]. rewrite IH. reflexivity.
Qed.
Lemma words_iff s ws : split_words s "" = ws <-> written ws s.
Proof. split; [intros <-; apply (words_written s ""%string); intros i x X; destruct i; discriminate|apply words_of]. Qed.
Lemma lines_nonempty s : split_lines s <> [].
Proof. induction s as [|c s IH]; cbn; [discriminate|]. destruct (Ascii.eqb c "010"); [discriminate|]. destruct (split_lines s); discriminate. Qed.
Lemma no_newline_cons c w : no_newline (String c w) <-> c <> "010"%char /\ no_newline w.
Proof.
  unfold no_newline. split; [intros H; split; [exact (H 0%nat c eq_refl)|intros i; exact (H (S i))]|]. intros [A B] [|i] x E; cbn in E; [injection E as <-; exact A|eauto].
Qed.
Lemma no_newline_nil : no_newline "".
Proof. intros i x X; destruct i; discriminate. Qed.
Lemma lines_iff s ls : split_lines s = ls <-> ls <> [] /\ joined ls = s /\ Forall no_newline ls.
Proof.
  split.
  - intros <-. split; [apply lines_nonempty|]. induction s as [|c s [IH1 IH2]]; cbn [split_lines].
    + split; [reflexivity|]. constructor; [apply no_newline_nil|constructor].
    + assert (N := lines_nonempty s). destruct (split_lines s) as [|l more]; [contradiction|]. destruct (Ascii.eqb_spec c "010") as [->|C].
      * split; [|constructor; [apply no_newline_nil|exact IH2]]. change (joined (""%string :: l :: more)) with (String "010" (joined (l :: more))). rewrite IH1. reflexivity.
      * inversion IH2; subst. split; [|constructor; [apply no_newline_cons; auto|assumption]]. destruct more; reflexivity.
  - revert s. induction ls as [|l ls IH]; intros s (N & J & F); [contradiction|]. inversion F as [|? ? Fl Fls]; subst. destruct ls as [|l' ls].
    + cbn [joined]. clear -Fl. induction l as [|c l IHl]; [reflexivity|]. apply no_newline_cons in Fl. destruct Fl as [C Fl]. cbn [split_lines]. rewrite (IHl Fl). destruct (Ascii.eqb_spec c "010"); [contradiction|reflexivity].
    + assert (E : split_lines (joined (l' :: ls)) = l' :: ls) by (apply IH; split; [discriminate|split; [reflexivity|exact Fls]]).
      assert (X : joined (l :: l' :: ls) = (l ++ String "010" (joined (l' :: ls)))%string) by reflexivity. rewrite X. clear X.
      revert E. generalize (joined (l' :: ls)). intros t E. clear -Fl E. induction l as [|c l IHl]; [cbn [append split_lines]; rewrite E; reflexivity|]. apply no_newline_cons in Fl. destruct Fl as [C Fl]. cbn [append split_lines]. rewrite (IHl Fl). destruct (Ascii.eqb_spec c "010"); [contradiction|reflexivity].
Qed.
Lemma hash_iff l : starts_hash l = true <-> exists rest, l = String "#" rest.
Proof.
  destruct l as [|c l]; cbn [starts_hash]; [split; [discriminate|intros (? & ?); discriminate]|]. destruct (Ascii.eqb_spec c "#") as [->|N]; [split; eauto|]. split; [discriminate|]. intros (r & E). congruence.
Qed.
Lemma read_lines_iff pyfloat lines : forall rows, read_lines pyfloat lines = Ok rows <-> table_of pyfloat lines rows.
Proof.
  induction lines as [|l lines IH]; intros rows; cbn [read_lines].
  - split; [intros E; injection E as <-; constructor|intros T; inversion T; reflexivity].
  - destruct (starts_hash l) eqn:Hs.
    + apply hash_iff in Hs. rewrite IH. split; [intros T; constructor; [left; exact Hs|exact T]|]. intros T. inversion T as [|? ? ? _ T'|? ? ? ? NS _ _]; subst; [exact T'|]. exfalso. apply NS. left. exact Hs.
    + assert (NH : ~ exists rest, l = String "#" rest) by (rewrite <- hash_iff, Hs; discriminate). destruct (split_words l "") as [|v vs] eqn:W.
      * apply words_iff in W. rewrite IH. split; [intros T; constructor; [right; exact W|exact T]|]. intros T. inversion T as [|? ? ? _ T'|? ? ? ? NS _ _]; subst; [exact T'|]. exfalso. apply NS. right. exact W.
      * apply words_iff in W. assert (NS : ~ skipped l). { intros [S|S]; [exact (NH S)|]. apply words_iff in S. apply words_iff in W. congruence. } rewrite rbind_iff. split.
        -- intros (f & Ff & E). apply rbind_iff in E. destruct E as (xs & Fx & E). apply rbind_iff in E. destruct E as (rs & R & E). injection E as <-. constructor; [exact NS| |apply IH, R]. exists v, vs. split; [exact W|]. split; [exact Ff|]. apply rmap_iff in Fx. exact Fx.
        -- intros T. inversion T as [|? ? ? S _|? ? [f xs] rs _ (v' & vs' & W' & Ff & Fx) T']; subst; [contradiction|]. apply words_iff in W. apply words_iff in W'. rewrite W in W'. injection W' as <- <-. exists f. split; [exact Ff|]. apply rbind_iff. exists xs. split; [apply rmap_iff; exact Fx|]. apply rbind_iff. exists rs. split; [apply IH, T'|reflexivity].
Qed.
Lemma read_iff pyfloat s rows : read_data pyfloat s = Ok rows <-> exists header lines, joined (header :: lines) = s /\ Forall no_newline (header :: lines) /\ table_of pyfloat lines rows.
Proof.
  unfold read_data. rewrite read_lines_iff. split.
  - intros T. destruct (split_lines s) as [|h ls] eqn:E; [exfalso; exact (lines_nonempty s E)|]. apply lines_iff in E. destruct E as (_ & J & F). exists h, ls. auto.
  - intros (h & ls & J & F & T). assert (E : split_lines s = h :: ls) by (apply lines_iff; split; [discriminate|auto]). rewrite E. exact T.
Qed.
Lemma target_iff rows h f : fit_target rows = Ok (h, f) <-> (exists n, forall r, In r rows -> length (snd r) = n) /\ length f <> 1%nat /\ h = map fst rows /\ f = concat (map snd rows).
Proof.
  unfold fit_target. destruct rows as [|r rows]; [split; [intros E; injection E as <- <-; repeat split; [exists 0%nat; intros ? []|discriminate]|intros (_ & _ & -> & ->); reflexivity]|].
  set (all := r :: rows). destruct (forallb _ all) eqn:B.
  - rewrite forallb_forall in B. cbv zeta. destruct (Nat.eqb_spec (length (concat (map snd all))) 1) as [X|X].
    + split; [discriminate|]. intros (_ & N & _ & ->). contradiction.
    + split; [intros E; injection E as <- <-; repeat split; [|exact X]; exists (length (snd r)); intros q Q; apply Nat.eqb_eq, B, Q|]. intros (_ & _ & -> & ->). reflexivity.
  - split; [discriminate|]. intros ((n & F) & _). exfalso. enough (forallb (fun q => Nat.eqb (length (snd q)) (length (snd r))) all = true) by congruence. apply forallb_forall. intros q Q. apply Nat.eqb_eq. rewrite (F q Q). symmetry. apply F. left. reflexivity.
Qed.

(** ** Resonance lines *)
Lemma gradient_iff f g : np_gradient f = Ok g <-> (2 <= length f)%nat /\ length g = length f /\ nth 0 g 0 = nth 1 f 0 - nth 0 f 0 /\ nth (length f - 1) g 0 = nth (length f - 1) f 0 - nth (length f - 2) f 0 /\
  forall i, (0 < i)%nat -> (i + 1 < length f)%nat -> nth i g 0 = (nth (i + 1) f 0 - nth (i - 1) f 0) / 2.
Proof.
  unfold np_gradient. cbv zeta. set (n := length f). destruct (Nat.ltb_spec n 2) as [L|L]; [split; [discriminate|intros [X _]; lia]|].
  set (F := fun i => _). assert (N : forall i, (i < n)%nat -> nth i (map F (seq 0 n)) 0 = F i). { intros i Hi. rewrite (nth_indep _ 0 (F 0%nat)) by (rewrite map_length, seq_length; exact Hi). rewrite map_nth, seq_nth by exact Hi. reflexivity. }
  assert (E0 : F 0%nat = nth 1 f 0 - nth 0 f 0) by reflexivity. assert (En : F (n - 1)%nat = nth (n - 1) f 0 - nth (n - 2) f 0). { unfold F. destruct (Nat.eqb_spec (n - 1) 0); [lia|]. rewrite Nat.eqb_refl. replace (n - 1 - 1)%nat with (n - 2)%nat by lia. reflexivity. }
  assert (Ei : forall i, (0 < i)%nat -> (i + 1 < n)%nat -> F i = (nth (i + 1) f 0 - nth (i - 1) f 0) / 2). { intros i A B. unfold F. destruct (Nat.eqb_spec i 0); [lia|]. destruct (Nat.eqb_spec i (n - 1)); [lia|]. reflexivity. }
  split.
  - intros E. injection E as <-. rewrite map_length, seq_length. repeat split; auto; intros; rewrite N by lia; auto.
  - intros (_ & Lg & G0 & Gn & Gi). f_equal. apply (nth_ext _ _ 0 0); [rewrite map_length, seq_length; symmetry; exact Lg|]. intros i Hi. rewrite map_length, seq_length in Hi. rewrite N by exact Hi.
    destruct (Nat.eq_dec i 0) as [->|A]; [congruence|]. destruct (Nat.eq_dec i (n - 1)) as [->|B]; [congruence|]. rewrite Ei, Gi by lia. reflexivity.
Qed.
Lemma sign_iff x : (x < 0 -> np_sign x = -1) /\ (x = 0 -> np_sign x = 0) /\ (0 < x -> np_sign x = 1).
Proof. unfold np_sign. destruct (Rlt_dec x 0); destruct (Rlt_dec 0 x); repeat split; intros; try reflexivity; lra. Qed.
Lemma changes_iff g i : In i (sign_changes g) <-> (i + 1 < length g)%nat /\ np_sign (nth i g 0) <> np_sign (nth (i + 1) g 0).
Proof.
  unfold sign_changes. rewrite filter_In, in_seq. destruct (Req_EM_T (np_sign (nth (i + 1) g 0) - np_sign (nth i g 0)) 0) as [E|E]; split; intros [A B]; try discriminate.
  - exfalso. apply B. lra.
  - split; [lia|]. intros X. apply E. rewrite X. ring.
  - split; [lia|reflexivity].
Qed.
Lemma last_n_length {A} n (l : list A) : length (last_n n l) = match n with O => length l | _ => Nat.min (length l) n end.
Proof. unfold last_n. destruct n; [reflexivity|]. rewrite skipn_length. lia. Qed.
Lemma last_n_in {A} n (l : list A) x : In x (last_n n l) -> In x l.
Proof. unfold last_n. destruct n; [auto|]. intros I. rewrite <- (firstn_skipn (length l - S n) l). apply in_app_iff. auto. Qed.
Lemma nones_iff f m l : add_nones f m = Ok l <-> l = [] /\ ((length f = 0 /\ m <= 1) \/ (length f <= 1 /\ m = 0))%nat.
Proof.
  unfold add_nones. destruct (Nat.eqb_spec (length f) m) as [A|A], (Nat.eqb_spec (length f) 1) as [B|B], (Nat.eqb_spec m 1) as [C|C]; cbn [orb]; try (split; [discriminate|intros [_ X]; lia]);
  destruct (Nat.eqb_spec (length f) 0) as [D|D], (Nat.eqb_spec m 0) as [E|E]; cbn [orb]; try (split; [discriminate|intros [_ X]; lia]); (split; [intros X; injection X as <-; split; [reflexivity|lia]|intros [-> _]; reflexivity]).
Qed.
Lemma line_iff argsort row frequencies N g l : (forall xs, length (argsort xs) = length xs /\ forall k, In k (argsort xs) -> (k < length xs)%nat) -> length frequencies = length row -> np_gradient row = Ok g ->
  (resonance_line argsort row frequencies N = Ok l <-> l = [] /\ (N = 1 \/ N = 0 /\ length (sign_changes g) <= 1)%nat).
Proof.
  intros AS LF G. unfold resonance_line. rewrite G. cbn [rbind]. set (idx := sign_changes g). set (am := map _ idx). set (srt := map _ (argsort am)).
  assert (GL := proj1 (gradient_iff _ _) G). destruct GL as (L2 & LG & _). destruct (Nat.eqb_spec (length frequencies) 1) as [E|_]; [lia|].
  assert (LS : length srt = length idx) by (unfold srt; rewrite map_length, (proj1 (AS am)); apply map_length).
  assert (IN : forall k, In k srt -> (k < length frequencies)%nat). { intros k K. unfold srt in K. apply in_map_iff in K. destruct K as (j & <- & J). apply (proj2 (AS am)) in J. unfold am in J. rewrite map_length in J. apply (nth_In idx 0%nat) in J. apply changes_iff in J. lia. }
  assert (FR : exists fr, rmap (item frequencies) (last_n N srt) = Ok fr /\ length fr = length (last_n N srt)).
  { assert (forall ks, (forall k, In k ks -> (k < length frequencies)%nat) -> exists fr, rmap (item frequencies) ks = Ok fr /\ length fr = length ks).
    { induction ks as [|k ks IHk]; intros H; [exists []; auto|]. destruct IHk as (fr & E & L); [intros; apply H; right; assumption|]. exists (nth k frequencies 0 :: fr). split; [|cbn; lia]. apply rmap_iff. constructor; [apply (item_iff _ _ _ 0); split; [apply H; left; reflexivity|reflexivity]|apply rmap_iff, E]. }
    apply H. intros k K. apply IN, (last_n_in N). exact K. }
  destruct FR as (fr & -> & Lf). cbn [rbind]. rewrite nones_iff, Lf, last_n_length, LS. apply and_iff_compat_l. fold idx. destruct N as [|N]; lia.
Qed.
Lemma line_empty argsort row frequencies N l : resonance_line argsort row frequencies N = Ok l -> l = [].
Proof.
  unfold resonance_line. intros E. apply rbind_iff in E. destruct E as (g & _ & E). cbv zeta in E. destruct (Nat.eqb (length frequencies) 1); [discriminate|]. apply rbind_iff in E. destruct E as (f & _ & E). apply nones_iff in E. tauto.
Qed.
Lemma set_line_in h v d h' l : In (h', l) (set_line h v d) -> (h' = h /\ l = v) \/ In (h', l) d.
Proof.
  induction d as [|[a b] d IH]; cbn; [intros [E|[]]; injection E as <- <-; auto|]. destruct (Req_EM_T a h) as [->|N]; cbn; intros [E|I]; auto.
  - injection E as <- <-. auto.
  - destruct (IH I) as [?|?]; auto.
Qed.
Lemma set_line_keys h v d : In (h, v) (set_line h v d) /\ forall h' l, In (h', l) d -> h' <> h -> In (h', l) (set_line h v d).
Proof.
  induction d as [|[a b] d [IH1 IH2]]; cbn; [split; [auto|intros ? ? []]|]. destruct (Req_EM_T a h) as [->|N]; cbn; split; auto.
  - intros h' l [E|I] D; [injection E as <- <-; contradiction|auto].
  - intros h' l [E|I] D; auto.
Qed.
Lemma loop_lines argsort sp fr N : forall hs i d r, (forall h l, In (h, l) d -> l = []) -> resonance_loop argsort sp fr N hs i d = Ok r -> forall h l, In (h, l) r <-> (In h hs \/ In (h, []) d) /\ l = [].
Proof.
  induction hs as [|a hs IH]; intros i d r D E; cbn [resonance_loop] in E.
  - injection E as <-. intros h l. split; [intros I; assert (l = []) by (exact (D h l I)); subst; auto|]. intros [[[]|I] ->]. exact I.
  - apply rbind_iff in E. destruct E as (row & _ & E). apply rbind_iff in E. destruct E as (line & L & E). apply line_empty in L. subst line. intros h l.
    rewrite (IH _ _ _ (fun h' l' I => match set_line_in _ _ _ _ _ I with or_introl (conj _ X) => X | or_intror J => D h' l' J end) E h l). destruct (set_line_keys a [] d) as [K1 K2]. split.
    + intros [[I|I] ->]; (split; [|reflexivity]); [left; right; exact I|]. destruct (set_line_in _ _ _ _ _ I) as [[-> _]|J]; [left; left; reflexivity|right; exact J].
    + intros [[[<-|I]|I] ->]; (split; [|reflexivity]); auto. destruct (Req_dec h a) as [->|N']; [auto|right; auto].
Qed.
Lemma extract_lines argsort spectrum hs fr N mx my d : extract_max_resonance_lines argsort spectrum hs fr N mx my = Ok d -> forall h l, In (h, l) d <-> In h (skipn mx hs) /\ l = [].
Proof. unfold extract_max_resonance_lines. intros E h l. assert (D : forall (h : R) (l : list R), In (h, l) [] -> l = []) by (intros ? ? X; destruct X). rewrite (loop_lines _ _ _ _ _ _ _ _ D E h l). cbn. tauto. Qed.

(** ** Counterexamples *)
Lemma nearest_calc t fs v : In v (map (fun f => (t - f) ^ 2) fs) -> (forall f, In f fs -> v <= (t - f) ^ 2) -> nearest_square t fs v.
Proof. intros I B. apply in_map_iff in I. destruct I as (f & <- & F). split; [eauto|exact B]. Qed.
Definition two_columns : list (R * list R) := [(1000, [1; 2]); (2000, [3; 4])].
Definition two_targets : list (R * list R) := [(1000, [1 * 10 ^ 9; 2 * 10 ^ 9]); (2000, [3 * 10 ^ 9; 4 * 10 ^ 9])].
Lemma columns_wrong : exists h f, fit_target two_targets = Ok (h, f) /\ h = map fst two_columns /\ f = map (fun x => x * 10 ^ 9) (concat (map snd two_columns)) /\
  compute_sb_mse f (map fst (sweep_rows two_columns)) (map snd (sweep_rows two_columns)) = Ok (Some 1).
Proof.
  eexists _, _. split; [reflexivity|]. split; [reflexivity|]. split; [reflexivity|]. apply mse_iff. right. split; [cbn; lia|]. exists [[(1000 / 10 ^ 3, 1); (1000 / 10 ^ 3, 2)]; [(2000 / 10 ^ 3, 3); (2000 / 10 ^ 3, 4)]], 1.
  split; [reflexivity|]. split; [constructor; [intros z [<-|[]]; reflexivity|cbn; lra|constructor; intros z [<-|[]]; reflexivity]|]. split; [cbn; lia|]. split; [|reflexivity].
  exists [0; 1]. split; [|cbn; ring]. cbn [map snd combine concat two_targets app fst]. (constructor; [|constructor; [|constructor]]); cbn [fst snd]; apply nearest_calc; cbn [map In].
  - left. field.
  - intros f _. apply pow2_ge_0.
  - left. field.
  - intros f [<-|[<-|[]]]; lra.
Qed.
Definition gap : list (R * list R) := [(1000, [1; 2]); (2000, []); (3000, [3])].
Lemma gap_wrong : compute_sb_mse [1 * 10 ^ 9; 2 * 10 ^ 9; 3 * 10 ^ 9] (map fst (sweep_rows gap)) (map snd (sweep_rows gap)) = Ok (Some 1).
Proof.
  apply mse_iff. right. split; [cbn; lia|]. exists [[(1000 / 10 ^ 3, 1); (1000 / 10 ^ 3, 2)]; [(3000 / 10 ^ 3, 3)]], 1.
  split; [reflexivity|]. split; [constructor; [intros z [<-|[]]; reflexivity|cbn; lra|constructor; intros z []]|]. split; [cbn; lia|]. split; [|reflexivity].
  exists [0; 1]. split; [|cbn; ring]. cbn [map snd combine fst]. (constructor; [|constructor; [|constructor]]); cbn [fst snd]; apply nearest_calc; cbn [map In].
  - left. field.
  - intros f _. apply pow2_ge_0.
  - left. field.
  - intros f [<-|[]]; lra.
Qed.
Definition swapped : fit_form := FitForm 1 (fun k => String.eqb (fst k) "K") (fun k => Ok 2) (fun k => Ok 1).
Lemma swapped_wrong : get_config swapped = Ok ([Bounds ("Ms"%string, 0%nat) 2 1], [(("K"%string, 0%nat), 2)]).
Proof.
  apply config_iff. cbn. apply Spaced_search; [split; [reflexivity|]; exists 2, 1; repeat split; lra|]. apply Spaced_held; [split; [reflexivity|discriminate]|]. constructor.
Qed.
