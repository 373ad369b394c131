(** Specification vocabulary for whole runs and the log. *)
From Verif Require Export S_Step.
Open Scope R_scope.

(** A column of the log; absent columns are empty. *)
Definition col (key : string) (g : log_t) : list R :=
  match log_get key g with Some c => c | None => [] end.
(** What a row contributes to a column. *)
Definition values (key : string) (row : list (string * R)) : list R :=
  map snd (filter (fun kv => String.eqb (fst kv) key) row).

(** Integer part of a nonnegative quotient. *)
Definition IntegerPart (x : R) (n : nat) : Prop := INR n <= x < INR n + 1 \/ (-1 < x < 0 /\ n = 0%nat).

(** r is the parallel combination of the resistances xs. *)
Definition ParallelOf (xs : list R) (r : R) : Prop :=
  (forall x, In x xs -> x <> 0) /\
  fold_right (fun x a => / x + a) 0 xs <> 0 /\ r = / fold_right (fun x a => / x + a) 0 xs.
(** Per-layer longitudinal and transverse resistances of a strip (AMR, SMR, AHE). *)
Definition strip_long (j : junction) (p : nat) (l : layer) : R :=
  nth p (j_Rx0 j) 0 + nth p (j_AMR_X j) 0 * (cx (l_mag l) * cx (l_mag l)) +
  nth p (j_SMR_X j) 0 * (cy (l_mag l) * cy (l_mag l)).
Definition strip_trans (j : junction) (p : nat) (l : layer) : R :=
  nth p (j_Ry0 j) 0 + nth p (j_AHE j) 0 * cz (l_mag l) / 2 +
  (nth p (j_AMR_Y j) 0 + nth p (j_SMR_Y j) 0) * (cx (l_mag l) * cy (l_mag l)).
Fixpoint mapi {A B} (f : nat -> A -> B) (i : nat) (xs : list A) : list B :=
  match xs with [] => [] | x :: t => f i x :: mapi f (S i) t end.
(** The constructor makes all seven parameter lists as long as the layer list. *)
Definition strip_sized (j : junction) : Prop :=
  length (j_Rx0 j) = layerNo j /\ length (j_Ry0 j) = layerNo j /\ length (j_AMR_X j) = layerNo j /\
  length (j_AMR_Y j) = layerNo j /\ length (j_SMR_X j) = layerNo j /\ length (j_SMR_Y j) = layerNo j /\
  length (j_AHE j) = layerNo j.
(** GMR with the angle between two vectors. *)
Definition GMR (Rp Rap c : R) : R := (Rp + Rap) / 2 - (Rap - Rp) / 2 * c.

(** ** One log row *)
Definition vec_row (key : string) (v : cvec) : list (string * R) :=
  [(key ++ "x", cx v); (key ++ "y", cy v); (key ++ "z", cz v)]%string.
Definition colname (id tag : string) : string := (id ++ "_" ++ tag)%string.
Definition energies_row (l : layer) : list (string * R) :=
  let c := l_cache l in
  let k := colname (l_id l) in
  [(k "K", c_K_log c); (k "Jbottom", c_Jbottom_log c); (k "Jtop", c_Jtop_log c); (k "I", c_I_log c)]%string ++
  vec_row (k "Hext"%string) (c_Hext c) ++ vec_row (k "Hiec"%string) (c_HIEC c) ++
  vec_row (k "Hanis"%string) (c_HAnis c) ++ vec_row (k "Hdemag"%string) (c_Hdemag c) ++
  vec_row (k "Hth"%string) (c_Hfluctuation c) ++
  (if l_includeSOT l then vec_row (k "Hfl"%string) (c_Hfl_v c) ++ vec_row (k "Hdl"%string) (c_Hdl_v c) else []) ++
  (if l_includeSTT l || l_includeSOT l then [(k "I"%string, c_I_log c)] else []).
Definition layer_row (energies : bool) (l : layer) : list (string * R) :=
  ((if energies then energies_row l else []) ++ vec_row (colname (l_id l) "m") (l_mag l))%list.
Definition resistance_row (j : junction) (row : list (string * R)) : Prop :=
  match j_mode j, j_layers j with
  | MR_CLASSIC, [l] => row = [("R", GMR (j_Rp j) (j_Rap j) (Dot (l_mag l) (l_reference l)))]%string
  | MR_CLASSIC, l0 :: l1 :: _ => row = [(j_Rtag j, GMR (j_Rp j) (j_Rap j) (Dot (l_mag l0) (l_mag l1)))]
  | MR_STRIP, ls => exists rx ry,
      ParallelOf (mapi (strip_long j) 0 ls) rx /\ ParallelOf (mapi (strip_trans j) 0 ls) ry /\
      row = [("Rx", rx); ("Ry", ry); ("Rz", 0)]%string
  | _, _ => row = []
  end.
Definition log_row (energies : bool) (j : junction) (t : R) (row : list (string * R)) : Prop :=
  exists rr, resistance_row j rr /\
    row = (flat_map (layer_row energies) (j_layers j) ++ rr ++ [("time"%string, t)])%list.

(** ** Whole runs *)
(** [s k] is the state before the step taken at time k dt. *)
Definition trajectory (r : runner) (dt : R) (s : nat -> junction) (N : nat) : Prop :=
  forall k, (k < N)%nat -> run_runner r (INR k * dt) dt (s k) = (s (S k), Ok tt).
Definition rows_needed (N w : nat) : nat := ((N + w - 1) / w)%nat.
(** [rows] are the rows written by a run of N steps writing every w-th one. *)
Definition rows_of (energies : bool) (dt : R) (s : nat -> junction) (N w : nat)
    (rows : list (list (string * R))) : Prop :=
  length rows = rows_needed N w /\
  forall k row, nth_error rows k = Some row ->
    log_row energies (s (S (k * w))) (INR (k * w) * dt) row.
(** Effect of a run: final layers of the trajectory, every column extended by the rows. *)
Definition run_effect (energies : bool) (dt : R) (r : runner) (j0 j' : junction) (N w : nat)
    (s : nat -> junction) (rows : list (list (string * R))) : Prop :=
  s 0%nat = j0 /\ trajectory r dt s N /\ (N = 0%nat \/ (w > 0)%nat) /\ rows_of energies dt s N w rows /\
  j' = set_j_log (j_log j') (j_logLength j0 + length rows) (s N) /\
  forall key, col key (j_log j') = (col key (j_log j0) ++ flat_map (values key) rows)%list.

(** ** Start of a run *)
(** Layers with coloured noise get a fresh noise source; the others are untouched. *)
Definition prepared (l : layer) : layer :=
  if Req_EM_T (l_nScale l) 0 then l
  else set_l_ngen (S (l_ngen l))
         (set_l_bfn (Some (VN (l_nAxis l) (l_nScale l) (l_nsrc l (l_ngen l)) 0)) l).
Definition preparable (N : nat) (l : layer) : Prop :=
  l_nScale l = 0 \/ (0 <= l_nAlpha l /\ l_nAxis l <> none_axis /\ N <> 0%nat).
Definition noisy (l : layer) : Prop := l_temperatureSet l = true \/ l_nScale l <> 0.
(** The mode and runner a run must use. *)
Definition mode_table (noise : Prop) (requested used : solver_mode) : Prop :=
  (noise -> used = match requested with HEUN => HEUN | _ => EULER_HEUN end) /\
  (~ noise -> used = requested).
Definition runner_table (n : nat) (used : solver_mode) : runner :=
  match used with
  | HEUN => RunHeun
  | EULER_HEUN => RunEulerHeun
  | RK4 | DORMAND_PRICE => match n with 1%nat => RunSingle | _ => RunMulti end
  end.
Definition selects (mode : solver_mode) (N : nat) (j j0 : junction) (r : runner) (used : solver_mode) : Prop :=
  (forall l, In l (j_layers j) -> preparable N l) /\
  j0 = set_j_layers (map prepared (j_layers j)) j /\
  mode_table (exists l, In l (j_layers j) /\ noisy l) mode used /\
  r = runner_table (layerNo j) used.
(** Step counts of a run; the code needs both to fit 32 bits. *)
Definition step_counts (T dt wf : R) (N w : nat) : Prop :=
  dt <= wf /\ dt <> 0 /\ IntegerPart (T / dt) N /\ IntegerPart (wf / dt) w /\
  T / dt < 4294967296 /\ wf / dt < 4294967296.

(** The resistance tag of a two-layer junction is built from the two ids by the constructor. *)
Definition tag_ok (j : junction) : Prop :=
  match j_layers j with
  | l0 :: l1 :: _ => j_mode j = MR_CLASSIC -> j_Rtag j = ("R_" ++ l_id l0 ++ "_" ++ l_id l1)%string
  | _ => True
  end.
(** The classic constructor accepts one or two layers only. *)
Definition classic_two (j : junction) : Prop := j_mode j = MR_CLASSIC -> (layerNo j <= 2)%nat.
Definition ids (j : junction) : list string := map l_id (j_layers j).
(** Column names of a row without energies. *)
Definition row_keys (j : junction) : list string :=
  flat_map (fun l => [colname (l_id l) "mx"; colname (l_id l) "my"; colname (l_id l) "mz"]%string) (j_layers j) ++
  match j_mode j, j_layers j with
  | MR_CLASSIC, [_] => ["R"%string]
  | MR_CLASSIC, _ :: _ :: _ => [j_Rtag j]
  | MR_STRIP, _ => ["Rx"; "Ry"; "Rz"]%string
  | _, _ => []
  end ++ ["time"%string].
(** Every stored column is exactly as long as the number of rows. *)
Definition aligned (j : junction) : Prop :=
  forall k c, In (k, c) (j_log j) -> length c = j_logLength j.
(** Column tags of a layer with energies requested; spin-orbit layers have six more. *)
Definition energy_tags (sot : bool) : list string :=
  app ["K"; "Jbottom"; "Jtop"; "Hextx"; "Hexty"; "Hextz"; "Hiecx"; "Hiecy"; "Hiecz"; "Hanisx"; "Hanisy"; "Hanisz";
    "Hdemagx"; "Hdemagy"; "Hdemagz"; "Hthx"; "Hthy"; "Hthz"; "mx"; "my"; "mz"]%string
   (if sot then ["Hflx"; "Hfly"; "Hflz"; "Hdlx"; "Hdly"; "Hdlz"]%string else []).
(** Names are usable: see the constructors. *)
Definition named (j : junction) : Prop := tag_ok j /\ classic_two j /\ NoDup (ids j).
(** The same layer with other random streams and generator positions. *)
Definition reseeded (l k : layer) : Prop :=
  exists rng rp src ng bf, k = set_l_rng rng (set_l_rpos rp (set_l_nsrc src (set_l_ngen ng (set_l_bfn bf l)))).
