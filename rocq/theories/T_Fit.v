(** C85: the fitting front end. *)
From Verif Require Import P_Fit.
From Coq Require Import Permutation Psatz Ascii.
Open Scope R_scope.
Open Scope st_scope.

(** An axis name gives angles (in degrees) and a vector exactly when it is one of the six names, and they point in the same direction. *)
Theorem c85_axes : (forall a, In a axis_names <-> exists v, get_axis_cvector a = Ok v) /\ (forall a, In a axis_names <-> exists p, get_axis_angles a = Ok p) /\
  (forall a v theta phi, get_axis_cvector a = Ok v -> get_axis_angles a = Ok (theta, phi) -> angle2vector theta phi (Norm v) = v) /\
  forall a x, get_axis a = Ok x <-> (a = "x"%string /\ x = xaxis) \/ (a = "y"%string /\ x = yaxis) \/ (a = "z"%string /\ x = zaxis).
Proof. exact (conj names_iff (conj angles_domain (conj axis_direction axis_iff))). Qed.
Example c85_axes_example : get_axis_cvector "xy" = Ok (CV 1 1 0) /\ get_axis_angles "xy" = Ok (90, 45) /\ get_axis "xy" = Err (Throw "Invalid axis").
Proof. repeat split. Qed.
(** What each name means *)
Theorem c85_axis_values : get_axis_cvector "x" = Ok (CV 1 0 0) /\ get_axis_cvector "y" = Ok (CV 0 1 0) /\ get_axis_cvector "z" = Ok (CV 0 0 1) /\
  get_axis_cvector "xy" = Ok (CV 1 1 0) /\ get_axis_cvector "xz" = Ok (CV 1 0 1) /\ get_axis_cvector "yz" = Ok (CV 0 1 1).
Proof. repeat split. Qed.

(** The groups of a table are its maximal runs of equal fields. *)
Theorem c85_groups (l : list (R * R)) gs : groupby fst l = gs <-> concat gs = l /\ runs fst gs.
Proof. split; [intros <-; exact (conj (groupby_concat fst l) (groupby_runs fst l))|intros [<- H]; exact (runs_unique fst gs H)]. Qed.
Example c85_groups_example : groupby fst [(1, 5); (1, 6); (2, 7); (1, 8)] = [[(1, 5); (1, 6)]; [(2, 7)]; [(1, 8)]].
Proof.
  apply c85_groups. split; [reflexivity|]. constructor; [intros z [<-|[]]; reflexivity|cbn; lra|]. constructor; [intros z []|cbn; lra|]. constructor. intros z [].
Qed.
(** The error: infinite when there are fewer frequencies than targets, otherwise the sum over the groups, taken in order against the targets taken in order. *)
Theorem c85_mse target Hmag frequency r : compute_sb_mse target Hmag frequency = Ok r <->
  ((length frequency < length target)%nat /\ r = None) \/
  ((length target <= length frequency)%nat /\ exists groups m, concat groups = combine Hmag frequency /\ runs fst groups /\
   (length groups <= length target)%nat /\ total_error target (map (map snd) groups) m /\ r = Some m).
Proof. exact (mse_iff target Hmag frequency r). Qed.
(** A sweep that finds a frequency at every field, neighbouring fields differing, one target per field: the error is the sum of the squared distances of each target to its nearest frequency. *)
Theorem c85_mse_sweep target table m : (forall p, In p table -> snd p <> []) -> neighbours_differ (map fst table) -> length target = length table ->
  (compute_sb_mse target (map fst (sweep_rows table)) (map snd (sweep_rows table)) = Ok (Some m) <-> total_error target (map snd table) m).
Proof. exact (mse_sweep target table m). Qed.
(** The error exists, is unique, is not negative, and vanishes exactly when every target is one of the frequencies of its field. *)
Theorem c85_error target lines : ((forall l, In l lines -> l <> []) -> exists m, total_error target lines m) /\
  (forall m n, total_error target lines m -> total_error target lines n -> m = n) /\
  (forall m, total_error target lines m -> 0 <= m /\ (m = 0 <-> forall t l, In (t, l) (combine target lines) -> In (t / 10 ^ 9) l)).
Proof. exact (conj (total_exists target lines) (conj (total_unique target lines) (total_zero target lines))). Qed.
Example c85_mse_sweep_example : compute_sb_mse [3 * 10 ^ 9; 5 * 10 ^ 9] (map fst (sweep_rows [(1000, [1; 4]); (2000, [5; 9])])) (map snd (sweep_rows [(1000, [1; 4]); (2000, [5; 9])])) = Ok (Some 1).
Proof.
  apply c85_mse_sweep; [intros p [<-|[<-|[]]]; discriminate|intros [|i] Hi; cbn in *; [lra|lia]|reflexivity|]. exists [1; 0]. split; [|cbn; ring].
  cbn [map snd combine fst]. (constructor; [|constructor; [|constructor]]); cbn [fst snd]; apply nearest_calc; cbn [map In].
  - right. left. field.
  - intros f [<-|[<-|[]]]; lra.
  - left. field.
  - intros f _. apply pow2_ge_0.
Qed.
(** A file with two frequency columns: the columns are put one after the other, so a simulation that reproduces the file exactly has error 1. *)
Theorem c85_columns_refuted : exists h f, fit_target two_targets = Ok (h, f) /\ h = map fst two_columns /\ f = map (fun x => x * 10 ^ 9) (concat (map snd two_columns)) /\
  compute_sb_mse f (map fst (sweep_rows two_columns)) (map snd (sweep_rows two_columns)) = Ok (Some 1).
Proof. exact columns_wrong. Qed.
(** A field without frequencies moves the later targets: the third field is compared with the second target. *)
Theorem c85_gap_refuted : gap = [(1000, [1; 2]); (2000, []); (3000, [3])] /\ compute_sb_mse [1 * 10 ^ 9; 2 * 10 ^ 9; 3 * 10 ^ 9] (map fst (sweep_rows gap)) (map snd (sweep_rows gap)) = Ok (Some 1) /\
  1 * 10 ^ 9 / 10 ^ 9 = 1 /\ 3 * 10 ^ 9 / 10 ^ 9 = 3.
Proof. split; [reflexivity|]. split; [exact gap_wrong|]. split; field. Qed.

(** One layer of the fit *)
Theorem c85_layer least i t a K Ms l p : fit_layer least i t a K Ms = Ok (l, p) <-> (i <= 9)%nat /\ exists theta phi, get_axis_angles a = Ok (theta, phi) /\ p = [deg2rad theta; deg2rad phi] /\
  exists Ks Kv, ((a = "z"%string /\ Ks = K * 1000 /\ Kv = least) \/ (a <> "z"%string /\ Ks = least /\ Kv = K * 1000)) /\
  l = LayerSB i (t / 10 ^ 9) (VO 0 (deg2rad phi) Kv) Ks (Ms / mu0) None (VO 0 0 1) None.
Proof. exact (layer_iff least i t a K Ms l p). Qed.
(** The axes xz and yz give the layers of x and y: the anisotropy has no component out of the plane. *)
Theorem c85_tilted_axis_refuted least i t K Ms : (i <= 9)%nat -> exists l m, fit_layer least i t "x" K Ms = Ok (l, [deg2rad 90; deg2rad 0]) /\ fit_layer least i t "xz" K Ms = Ok (l, [deg2rad 45; deg2rad 0]) /\
  fit_layer least i t "y" K Ms = Ok (m, [deg2rad 90; deg2rad 90]) /\ fit_layer least i t "yz" K Ms = Ok (m, [deg2rad 45; deg2rad 90]).
Proof. exact (layer_projection least i t K Ms). Qed.
Example c85_layer_example : exists l, fit_layer 1 0 2 "z" 500 1 = Ok (l, [deg2rad 0; deg2rad 0]) /\ sb_Ks l = 500 * 1000 /\ vo_mag (sb_Kv l) = 1.
Proof.
  eexists. split; [apply c85_layer; split; [lia|]; exists 0, 0; split; [reflexivity|]; split; [reflexivity|]; exists (500 * 1000), 1; split; [left; auto|reflexivity]|]. split; reflexivity.
Qed.
(** The sweep: at every field a solver of the same layers, started from the equilibrium of the previous field; its rows are the frequencies with the field in kA/m. *)
Theorem c85_sweep solve layers Js theta phi hvals init rows : sweep solve layers Js theta phi hvals init = Ok rows <->
  exists outs, length outs = length hvals /\ (hvals <> [] -> (length layers = length Js + 1)%nat /\ Permutation (map sb_id layers) (seq 0 (length layers))) /\
  (forall k, (k < length hvals)%nat -> solve (field_solver layers Js theta phi (nth k hvals 0)) (sweep_start init outs k) = Ok (nth k outs ([], []))) /\
  rows = sweep_rows (combine hvals (map snd outs)).
Proof. exact (sweep_iff solve layers Js theta phi hvals init rows). Qed.
Theorem c85_simulation solve hvals N th ax H kw rows d : simulate_sb_wrapper solve hvals N th ax H kw = Ok rows <->
  exists J K Ms ls theta phi, kwargs_to_list kw N = Ok (J, K, Ms) /\ length ls = N /\
  (forall i, (i < N)%nat -> (i < length th)%nat /\ (i < length ax)%nat /\ fit_layer 1 i (nth i th 0) (nth i ax ""%string) (nth i K 0) (nth i Ms 0) = Ok (nth i ls d)) /\
  get_axis_angles H = Ok (theta, phi) /\ sweep solve (map fst ls) (map (fun j => j / 10 ^ 6) J) theta phi hvals (concat (map snd ls)) = Ok rows.
Proof. exact (wrapper_iff solve hvals N th ax H kw rows d). Qed.
Example c85_simulation_example : simulate_sb_wrapper (fun s p => Ok (p, [3; 7])) [1000; 2000] 1 [2] ["z"%string] "x" [(("K"%string, 0%nat), 500); (("Ms"%string, 0%nat), 1)] =
  Ok [(1000 / 10 ^ 3, 3); (1000 / 10 ^ 3, 7); (2000 / 10 ^ 3, 3); (2000 / 10 ^ 3, 7)].
Proof.
  assert (L : exists l, fit_layer 1 0 2 "z" 500 1 = Ok (l, [deg2rad 0; deg2rad 0]) /\ sb_id l = 0%nat).
  { eexists. split; [apply c85_layer; split; [lia|]; exists 0, 0; split; [reflexivity|]; split; [reflexivity|]; exists (500 * 1000), 1; split; [left; auto|reflexivity]|]. reflexivity. }
  destruct L as (l & L & I). apply (c85_simulation _ _ _ _ _ _ _ _ (l, [])). exists [], [500], [1], [(l, [deg2rad 0; deg2rad 0])], 90, 0. split; [reflexivity|]. split; [reflexivity|]. split.
  - intros [|i] Hi; [|lia]. cbn. split; [lia|]. split; [lia|]. exact L.
  - split; [reflexivity|]. apply c85_sweep. exists [([deg2rad 0; deg2rad 0], [3; 7]); ([deg2rad 0; deg2rad 0], [3; 7])]. split; [reflexivity|]. split; [intros _; split; [reflexivity|]; cbn; rewrite I; constructor; constructor|].
    split; [|reflexivity]. intros [|[|k]] Hk; try reflexivity. cbn in Hk. lia.
Qed.
(** The field is given in degrees where radians are expected: a field along x, y or in the plane leaves the plane. *)
Theorem c85_field_refuted a theta phi h : In a ["x"; "y"; "xy"]%string -> get_axis_angles a = Ok (theta, phi) -> h <> 0 -> cz (get_cartesian (VO theta phi h)) <> 0.
Proof. exact (field_tilted a theta phi h). Qed.
Example c85_field_refuted_example : cz (get_cartesian (VO 90 0 1000)) <> 0.
Proof. apply (c85_field_refuted "x"%string); [left; reflexivity|reflexivity|lra]. Qed.

(** The search space: parameters in the order of the layers, each either searched between its bounds or held. *)
Theorem c85_config s cfg fixed : get_config s = Ok (cfg, fixed) <-> spaced s (config_names (ff_N s)) cfg fixed.
Proof. exact (config_iff s cfg fixed). Qed.
Theorem c85_names N : NoDup (config_names N) /\ forall k, In k (config_names N) <-> fit_names N k.
Proof. exact (conj (config_names_nodup N) (config_names_in N)). Qed.
(** Every parameter is searched or held, never both. *)
Theorem c85_partition s cfg fixed : get_config s = Ok (cfg, fixed) -> Permutation (config_names (ff_N s)) (map bd_name cfg ++ map fst fixed) /\
  (forall b, In b cfg -> to_search s (bd_name b) b) /\ (forall k v, In (k, v) fixed -> held s k v).
Proof. intros C. apply config_iff in C. exact (conj (spaced_names _ _ _ _ C) (spaced_each _ _ _ _ C)). Qed.
Example c85_config_example : get_config swapped = Ok ([Bounds ("Ms"%string, 0%nat) 2 1], [(("K"%string, 0%nat), 2)]).
Proof. exact swapped_wrong. Qed.
(** Bounds in the wrong order are reported as swapped but kept in the wrong order. *)
Theorem c85_bounds_refuted : exists s cfg fixed b, get_config s = Ok (cfg, fixed) /\ In b cfg /\ bd_ub b < bd_lb b.
Proof. exists swapped, [Bounds ("Ms"%string, 0%nat) 2 1], [(("K"%string, 0%nat), 2)], (Bounds ("Ms"%string, 0%nat) 2 1). split; [exact swapped_wrong|]. split; [left; reflexivity|cbn; lra]. Qed.
(** The lists of a simulation are read off by name. *)
Theorem c85_kwargs d N J K Ms : NoDup (map fst d) -> (kwargs_to_list d N = Ok (J, K, Ms) <->
  (length J = N - 1)%nat /\ length K = N /\ length Ms = N /\ (forall i, (i + 1 < N)%nat -> In (("J"%string, i), nth i J 0) d) /\
  (forall i, (i < N)%nat -> In (("K"%string, i), nth i K 0) d) /\ (forall i, (i < N)%nat -> In (("Ms"%string, i), nth i Ms 0) d)).
Proof. exact (kwargs_iff d N J K Ms). Qed.
(** A suggestion for the searched parameters together with the held ones always gives the lists of a simulation. *)
Theorem c85_suggestion s cfg fixed x : get_config s = Ok (cfg, fixed) -> Permutation (map fst x) (map bd_name cfg) ->
  NoDup (map fst (x ++ fixed)) /\ exists J K Ms, kwargs_to_list (x ++ fixed) (ff_N s) = Ok (J, K, Ms).
Proof. exact (kwargs_total s cfg fixed x). Qed.
Example c85_suggestion_example : exists J K Ms, kwargs_to_list ([(("Ms"%string, 0%nat), 17 / 10)] ++ [(("K"%string, 0%nat), 2)]) 1 = Ok (J, K, Ms).
Proof. exact (proj2 (c85_suggestion swapped _ _ [(("Ms"%string, 0%nat), 17 / 10)] swapped_wrong (Permutation_refl _))). Qed.
Theorem c85_suggestion_error solve s th ax H fixed x hvals target r : suggestion_error solve s th ax H fixed x hvals target = Ok r <->
  exists rows, simulate_sb_wrapper solve hvals (ff_N s) th ax H (x ++ fixed) = Ok rows /\ compute_sb_mse target (map fst rows) (map snd rows) = Ok r.
Proof. exact (P_Resist.rbind_iff _ _ r). Qed.

(** Words and lines of a text *)
Theorem c85_words s ws : split_words s "" = ws <-> written ws s.
Proof. exact (words_iff s ws). Qed.
Theorem c85_lines s ls : split_lines s = ls <-> ls <> [] /\ joined ls = s /\ Forall no_newline ls.
Proof. exact (lines_iff s ls). Qed.
Example c85_words_example : written ["12"; "3e9"]%string "  12 3e9 ".
Proof. apply c85_words. reflexivity. Qed.
(** The table of a file: one row for every line after the first that is neither blank nor starts with #. *)
Theorem c85_read pyfloat s rows : read_data pyfloat s = Ok rows <-> exists header lines, joined (header :: lines) = s /\ Forall no_newline (header :: lines) /\ table_of pyfloat lines rows.
Proof. exact (read_iff pyfloat s rows). Qed.
Theorem c85_target rows h f : fit_target rows = Ok (h, f) <-> (exists n, forall r, In r rows -> length (snd r) = n) /\ length f <> 1%nat /\ h = map fst rows /\ f = concat (map snd rows).
Proof. exact (target_iff rows h f). Qed.
Example c85_read_example : read_data (fun w => if String.eqb w "1" then Ok 1 else if String.eqb w "2" then Ok 2 else Err (Throw "could not convert string to float"))
  (joined ["H f"; "1 2 "; ""; "# c"; "2 1 1"])%string = Ok [(1, [2]); (2, [1; 1])].
Proof. reflexivity. Qed.
(** Characters that separate words *)
Theorem c85_blank c : is_space c = true <-> nat_of_ascii c = 32%nat \/ (9 <= nat_of_ascii c <= 13)%nat \/ (28 <= nat_of_ascii c <= 31)%nat.
Proof.
  unfold is_space. cbv zeta. generalize (nat_of_ascii c). intros n. rewrite !Bool.orb_true_iff, !Bool.andb_true_iff, Nat.eqb_eq, !Nat.leb_le. tauto.
Qed.

(** The gradient of a line and the changes of its sign *)
Theorem c85_gradient f g : np_gradient f = Ok g <-> (2 <= length f)%nat /\ length g = length f /\ nth 0 g 0 = nth 1 f 0 - nth 0 f 0 /\ nth (length f - 1) g 0 = nth (length f - 1) f 0 - nth (length f - 2) f 0 /\
  forall i, (0 < i)%nat -> (i + 1 < length f)%nat -> nth i g 0 = (nth (i + 1) f 0 - nth (i - 1) f 0) / 2.
Proof. exact (gradient_iff f g). Qed.
Theorem c85_changes g i : In i (sign_changes g) <-> (i + 1 < length g)%nat /\ np_sign (nth i g 0) <> np_sign (nth (i + 1) g 0).
Proof. exact (changes_iff g i). Qed.
Theorem c85_sign x : (x < 0 -> np_sign x = -1) /\ (x = 0 -> np_sign x = 0) /\ (0 < x -> np_sign x = 1).
Proof. exact (sign_iff x). Qed.
(** A resonance line is extracted for one layer, or for none with at most one extremum, and it is empty. *)
Theorem c85_line argsort row frequencies N g l : (forall xs, length (argsort xs) = length xs /\ forall k, In k (argsort xs) -> (k < length xs)%nat) -> length frequencies = length row -> np_gradient row = Ok g ->
  (resonance_line argsort row frequencies N = Ok l <-> l = [] /\ (N = 1 \/ N = 0 /\ length (sign_changes g) <= 1)%nat).
Proof. exact (line_iff argsort row frequencies N g l). Qed.
(** The extraction never returns a frequency. *)
Theorem c85_extract_refuted argsort spectrum hs fr N mx my d : extract_max_resonance_lines argsort spectrum hs fr N mx my = Ok d -> forall h l, In (h, l) d <-> In h (skipn mx hs) /\ l = [].
Proof. exact (extract_lines argsort spectrum hs fr N mx my d). Qed.
Example c85_extract_example : exists d, extract_max_resonance_lines (fun xs => seq 0 (length xs)) [[1; 3; 2]; [2; 5; 4]] [100; 200] [1; 2; 3] 1 0 0 = Ok d.
Proof.
  assert (A : forall xs : list R, length (seq 0 (length xs)) = length xs /\ forall k, In k (seq 0 (length xs)) -> (k < length xs)%nat) by (intros xs; split; [apply seq_length|intros k K; apply in_seq in K; lia]).
  unfold extract_max_resonance_lines. cbn [skipn map resonance_loop item nth_error rbind].
  rewrite (proj2 (c85_line (fun xs => seq 0 (length xs)) [1; 3; 2] [1; 2; 3] 1 _ [] A eq_refl eq_refl)) by auto. cbn [rbind].
  rewrite (proj2 (c85_line (fun xs => seq 0 (length xs)) [2; 5; 4] [1; 2; 3] 1 _ [] A eq_refl eq_refl)) by auto. cbn [rbind]. eexists. reflexivity.
Qed.

Print Assumptions c85_axes.
Print Assumptions c85_axis_values.
Print Assumptions c85_groups.
Print Assumptions c85_mse.
Print Assumptions c85_mse_sweep.
Print Assumptions c85_error.
Print Assumptions c85_columns_refuted.
Print Assumptions c85_gap_refuted.
Print Assumptions c85_layer.
Print Assumptions c85_tilted_axis_refuted.
Print Assumptions c85_sweep.
Print Assumptions c85_simulation.
Print Assumptions c85_field_refuted.
Print Assumptions c85_config.
Print Assumptions c85_names.
Print Assumptions c85_partition.
Print Assumptions c85_bounds_refuted.
Print Assumptions c85_kwargs.
Print Assumptions c85_suggestion.
Print Assumptions c85_suggestion_error.
Print Assumptions c85_words.
Print Assumptions c85_lines.
Print Assumptions c85_read.
Print Assumptions c85_target.
Print Assumptions c85_blank.
Print Assumptions c85_gradient.
Print Assumptions c85_changes.
Print Assumptions c85_sign.
Print Assumptions c85_line.
Print Assumptions c85_extract_refuted.
