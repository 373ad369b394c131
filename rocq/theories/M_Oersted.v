(** Model of cmtj/models/oersted.py over the reals. *)
From Verif Require Export M_Resist.
Open Scope R_scope.
Open Scope st_scope.

(** A Python number that may be an integer or a float. *)
Inductive pynum := PInt (z : Z) | PFloat (x : R).
Definition num_val (n : pynum) : R := match n with PInt z => IZR z | PFloat x => x end.
(** [math.ceil] *)
Definition math_ceil (x : R) : Z := (- Int_part (- x))%Z.
(** [range(a, b)] *)
Definition zrange (a b : Z) : list Z := map (fun k => (a + Z.of_nat k)%Z) (seq 0 (Z.to_nat (b - a))).

(** ** Blocks *)
(** oersted.py:13-21 *)
Definition distance (p1 p2 : R * R) : R := sqrt ((fst p1 - fst p2) ^ 2 + (snd p1 - snd p2) ^ 2).
Definition ampere_law (I : R) (p1 p2 : R * R) : result R := py_div I (PI * 2 * distance p1 p2).
(** oersted.py:24-41  The centre, area and length are computed from the fields. *)
Record block := Blk { b_ix : Z; b_iy : Z; b_iz : Z; b_dx : R; b_dy : R; b_dz : R; b_H : R; b_I : R }.
Definition newBlock (ix iy iz : Z) (dx dy dz : R) : block := Blk ix iy iz dx dy dz 0 0.
Definition b_x (b : block) : R := (IZR (b_ix b) + 1) * b_dx b / 2.
Definition b_y (b : block) : R := (IZR (b_iy b) + 1) * b_dy b / 2.
Definition b_z (b : block) : R := (IZR (b_iz b) + 1) * b_dz b / 2.
Definition b_area (b : block) : R := b_dx b * b_dy b.
Definition b_dl (b : block) : R := b_dz b.
(** oersted.py:43-44 *)
Definition distance_sqr_from (b o : block) : R := (b_x b - b_x o) ^ 2 + (b_y b - b_y o) ^ 2 + (b_z b - b_z o) ^ 2.
(** oersted.py:46-53 *)
Definition set_I (I : R) (b : block) : block := Blk (b_ix b) (b_iy b) (b_iz b) (b_dx b) (b_dy b) (b_dz b) (b_H b) I.
Definition set_j (j : R) (b : block) : block := set_I (j * b_area b) b.
Definition add_H (H : R) (b : block) : block := Blk (b_ix b) (b_iy b) (b_iz b) (b_dx b) (b_dy b) (b_dz b) (b_H b + H) (b_I b).
(** oersted.py:55-60 *)
Definition biot_savart (b o : block) : result R :=
  let r := distance (b_x b, b_y b) (b_x o, b_y o) in
  if Rlt_dec r (1 / 10 ^ 15) then Ok 0
  else H <-- py_div (b_I o * b_area o * b_dl b) (r ^ 2) ;; Ok (H / (4 * PI)).
(** oersted.py:62-63 *)
Definition block_ampere (b o : block) : result R := ampere_law (b_I o) (b_x b, b_y b) (b_x o, b_y o).
(** oersted.py:65-66 *)
Definition block_eq (b o : block) : bool := ((b_ix b =? b_ix o) && (b_iy b =? b_iy o) && (b_iz b =? b_iz o))%Z.

(** ** Structures *)
(** oersted.py:70-87  The array of blocks is kept flat, in C order. *)
Record structure := Structure { s_maxY : pynum; s_dx : R; s_dy : R; s_dz : R; s_X : Z; s_Y : Z; s_Z : Z; s_blocks : list block; s_borders : list R; s_labels : list (option string) }.
Definition with_blocks (l : list block) (s : structure) : structure := Structure (s_maxY s) (s_dx s) (s_dy s) (s_dz s) (s_X s) (s_Y s) (s_Z s) l (s_borders s) (s_labels s).
Inductive field_method := AMPERE | BIOT_SAVART.
(** oersted.py:111-117 *)
Definition init_blocks (X Y Zs : Z) (dx dy dz : R) : result (list block) :=
  if ((X <? 0) || (Y <? 0) || (Zs <? 0))%Z then Err (Throw "negative dimensions are not allowed")
  else Ok (flat_map (fun ix => flat_map (fun iy => map (fun iz => newBlock ix iy iz dx dy dz) (zrange 0 Zs)) (zrange 0 Y)) (zrange 0 X)).
Definition newStructure (maxX maxY maxZ : pynum) (dx dy dz : R) (method : field_method) : result structure :=
  qx <-- py_div (num_val maxX) dx ;;
  qy <-- py_div (num_val maxY) dy ;;
  qz <-- py_div (num_val maxZ) dz ;;
  let X := math_ceil qx in let Y := math_ceil qy in let Zs := Z.max (math_ceil qz) 1 in
  if match method with AMPERE => (1 <? Zs)%Z | BIOT_SAVART => false end then Err (Throw "Wasting compute with z dim non-zero!")
  else l <-- init_blocks X Y Zs dx dy dz ;; Ok (Structure maxY dx dy dz X Y Zs l [] []).
(** oersted.py:119-120 *)
Definition reset_blocks : ST structure unit :=
  s <- get ;; l <- lift (init_blocks (s_X s) (s_Y s) (s_Z s) (s_dx s) (s_dy s) (s_dz s)) ;; modify (with_blocks l).
(** [self.blocks[x, y, z]] for x, z in range; y may be negative. *)
Definition block_at (s : structure) (x y z : Z) : result nat :=
  let y' := if (y <? 0)%Z then (y + s_Y s)%Z else y in
  if ((y' <? 0) || (s_Y s <=? y'))%Z then Err (Throw "index is out of bounds for axis 1") else Ok (Z.to_nat ((x * s_Y s + y') * s_Z s + z)).
(** [for x in l: body] *)
Fixpoint each {S A} (f : A -> ST S unit) (l : list A) : ST S unit :=
  match l with [] => ret tt | a :: l => f a ;;; each f l end.
Definition update_block (f : block -> block) (k : nat) : ST structure unit :=
  s <- get ;; b <- lift (row_ (s_blocks s) k) ;; modify (with_blocks (set_nth k (f b) (s_blocks s))).
(** oersted.py:89-100  [max_y_indx] is an integer or, from [set_region_I], possibly a float. *)
Definition set_region_I_idx (I : R) (min_y : Z) (max_y : pynum) : ST structure unit :=
  s <- get ;;
  let max_y := if Req_EM_T (num_val max_y) (-1) then PInt (s_Y s) else max_y in
  let stop1 := if Rlt_dec (IZR (s_Y s)) (num_val max_y + 1) then IZR (s_Y s) else num_val max_y + 1 in
  I_mag <- lift (py_div I (IZR (s_X s) * (stop1 - IZR min_y))) ;;
  stop <- lift (if Rlt_dec (IZR (s_Y s)) (num_val max_y) then Ok (s_Y s)
                else match max_y with PInt z => Ok z | PFloat _ => Err (Throw "'float' object cannot be interpreted as an integer") end) ;;
  each (fun y => each (fun x => each (fun z => k <- lift (block_at s x y z) ;; update_block (set_I I_mag) k) (zrange 0 (s_Z s))) (zrange 0 (s_X s))) (zrange min_y stop).
(** oersted.py:136-139 *)
Definition ycoords2indx (s : structure) (min_coord max_coord : R) : result (Z * pynum) :=
  a <-- py_div min_coord (s_dy s) ;;
  if Req_EM_T max_coord (-1) then Ok (math_ceil a, s_maxY s)
  else b <-- py_div max_coord (s_dy s) ;; Ok (math_ceil a, PInt (math_ceil b)).
(** oersted.py:102-109 *)
Definition set_region_I (I min_y max_y : R) (label : option string) : ST structure unit :=
  modify (fun s => Structure (s_maxY s) (s_dx s) (s_dy s) (s_dz s) (s_X s) (s_Y s) (s_Z s) (s_blocks s) (s_borders s ++ [min_y]) (s_labels s ++ [label])) ;;;
  s <- get ;;
  q <- lift (ycoords2indx s min_y max_y) ;;
  let '(lo, hi) := q in set_region_I_idx I lo hi.
(** oersted.py:122-134 *)
Definition compute_pair (i j : nat) : ST structure unit :=
  s <- get ;;
  b <- lift (row_ (s_blocks s) i) ;;
  o <- lift (row_ (s_blocks s) j) ;;
  H1 <- lift (block_ampere b o) ;;
  H2 <- lift (block_ampere o b) ;;
  update_block (add_H H1) i ;;;
  update_block (add_H H2) j.
Definition compute_blocks : ST structure unit :=
  s <- get ;;
  let n := List.length (s_blocks s) in
  each (fun i => each (fun j => compute_pair i j) (seq (S i) (n - S i))) (seq 0 n).
(** oersted.py:141-149 *)
Fixpoint sum_at (s : structure) (l : list (Z * Z * Z)) (acc : R) : result R :=
  match l with
  | [] => Ok acc
  | (x, y, z) :: l => k <-- block_at s x y z ;; b <-- row_ (s_blocks s) k ;; sum_at s l (acc + b_H b)
  end.
Definition get_region_contributions_idx (s : structure) (min_y max_y : Z) : result R :=
  let max_y := if (max_y =? -1)%Z then s_Y s else max_y in
  sum_at s (flat_map (fun y => flat_map (fun x => map (fun z => (x, y, z)) (zrange 0 (s_Z s))) (zrange 0 (s_X s))) (zrange min_y (Z.min max_y (s_Y s)))) 0.
(** [a[lo:hi]] along an axis of length n *)
Definition slice_end (n z : Z) : Z := if (z <? 0)%Z then Z.max (z + n) 0 else Z.min z n.
Fixpoint pick (s : structure) (l : list (Z * Z * Z)) : result (list block) :=
  match l with
  | [] => Ok []
  | (x, y, z) :: l => k <-- block_at s x y z ;; b <-- row_ (s_blocks s) k ;; r <-- pick s l ;; Ok (b :: r)
  end.
(** [self.blocks[:, lo:hi, :].flatten()] *)
Definition rows_between (s : structure) (lo hi : Z) : result (list block) :=
  let picked := flat_map (fun x => flat_map (fun y => map (fun z => (x, y, z)) (zrange 0 (s_Z s))) (zrange (slice_end (s_Y s) lo) (slice_end (s_Y s) hi))) (zrange 0 (s_X s)) in
  pick s picked.
(** oersted.py:161-180 *)
Fixpoint from_source (src : block) (targets : list block) (acc : R) : result R :=
  match targets with
  | [] => Ok acc
  | t :: targets => if block_eq src t then from_source src targets acc else H <-- block_ampere t src ;; from_source src targets (acc + H)
  end.
Fixpoint from_sources (sources targets : list block) (acc : R) : result R :=
  match sources with
  | [] => Ok acc
  | b :: sources => h <-- from_source b targets acc ;; from_sources sources targets h
  end.
Definition slice_index (n : pynum) : result Z := match n with PInt z => Ok z | PFloat _ => Err (Throw "slice indices must be integers or None or have an __index__ method") end.
Definition compute_region_contribution_idx (s : structure) (smin : Z) (smax : pynum) (tmin : Z) (tmax : pynum) : result R :=
  sm <-- slice_index smax ;; src <-- rows_between s smin sm ;;
  tm <-- slice_index tmax ;; targ <-- rows_between s tmin tm ;;
  from_sources src targ 0.
(** oersted.py:151-159 *)
Definition compute_region_contribution (s : structure) (source_min source_max target_min target_max : R) : result R :=
  a <-- ycoords2indx s source_min source_max ;;
  b <-- ycoords2indx s target_min target_max ;;
  let '(smin, smax) := a in let '(tmin, tmax) := b in
  compute_region_contribution_idx s smin smax tmin tmax.
(** oersted.py:182-186, 198  the array [show_field] plots and returns, as the list of (ix, iy, value) writes in order; later
    writes win. *)
Definition show_field (s : structure) (x y : Z) : R :=
  fold_left (fun v b => if ((b_ix b =? x) && (b_iy b =? y))%Z then b_H b else v) (s_blocks s) 0.
