(** What the Oersted field model should compute. *)
From Verif Require Export M_Oersted.
Open Scope R_scope.

Definition total {A} (f : A -> R) (l : list A) : R := fold_right (fun a v => f a + v) 0 l.
Definition place (b : block) : Z * Z * Z := (b_ix b, b_iy b, b_iz b).
(** The cells of a structure, last index fastest. *)
Definition grid (X Y Zs : Z) : list (Z * Z * Z) := flat_map (fun x => flat_map (fun y => map (fun z => (x, y, z)) (zrange 0 Zs)) (zrange 0 Y)) (zrange 0 X).
Definition sized (dx dy dz : R) (b : block) : Prop := b_dx b = dx /\ b_dy b = dy /\ b_dz b = dz.
(** One block per cell. *)
Definition built (s : structure) : Prop :=
  (0 <= s_X s)%Z /\ (0 <= s_Y s)%Z /\ (1 <= s_Z s)%Z /\ s_dx s <> 0 /\ s_dy s <> 0 /\
  map place (s_blocks s) = grid (s_X s) (s_Y s) (s_Z s) /\ Forall (sized (s_dx s) (s_dy s) (s_dz s)) (s_blocks s).
(** Distance of the centres of two blocks of equal size. *)
Definition centre_distance (b o : block) : R := sqrt ((b_dx b * (IZR (b_ix b) - IZR (b_ix o))) ^ 2 + (b_dy b * (IZR (b_iy b) - IZR (b_iy o))) ^ 2).
(** The field of o at b, as computed: half the distance in the law of Ampere. *)
Definition ampere_field (b o : block) : R := b_I o / (2 * PI * (centre_distance b o / 2)).
(** The field of all other blocks at b. *)
Definition field_at (l : list block) (b : block) : R := total (fun o => if block_eq b o then 0 else ampere_field b o) l.
Definition field_between (sources targets : list block) : R := total (fun o => total (fun b => if block_eq o b then 0 else ampere_field b o) targets) sources.
(** Rows lo .. hi-1, negative rows counted from the end. *)
Definition in_rows (Y lo hi y : Z) : bool := (((lo <=? y) && (y <? hi)) || ((lo <=? y - Y) && (y - Y <? hi)))%Z.
Definition row_field (s : structure) (y : Z) : R := total (fun b => if (b_iy b =? y)%Z then b_H b else 0) (s_blocks s).
(** Where a region ends; a float end is usable only beyond the structure. *)
Definition region_top (s : structure) (hi : pynum) : R := if Req_EM_T (num_val hi) (-1) then IZR (s_Y s) else num_val hi.
Definition region_end (s : structure) (hi : pynum) (e : Z) : Prop :=
  (IZR (s_Y s) < region_top s hi /\ e = s_Y s) \/ (region_top s hi <= IZR (s_Y s) /\ IZR e = region_top s hi /\ (num_val hi = -1 \/ hi = PInt e)).
(** The current each block of a region gets. *)
Definition region_share (s : structure) (I : R) (lo : Z) (hi : pynum) : R := I / (IZR (s_X s) * (Rmin (region_top s hi + 1) (IZR (s_Y s)) - IZR lo)).
(** The blocks a slice picks. *)
Definition rows_of (s : structure) (lo hi : Z) : list block := filter (fun b => ((slice_end (s_Y s) lo <=? b_iy b) && (b_iy b <? slice_end (s_Y s) hi))%Z) (s_blocks s).
(** The row a possibly negative index stands for. *)
Definition region_sum (s : structure) (lo e : Z) : R := total (fun y => row_field s (y mod s_Y s)%Z) (zrange lo e).
(** New blocks carry no current and feel no field. *)
Definition fresh_blocks (X Y Zs : Z) (dx dy dz : R) : list block := map (fun p => newBlock (fst (fst p)) (snd (fst p)) (snd p) dx dy dz) (grid X Y Zs).
(** The field of o at b is finite, or not asked for. *)
Definition apart (o b : block) : Prop := block_eq o b = false -> centre_distance b o <> 0.
(** A border and a label added. *)
Definition noted (min_y : R) (label : option string) (s : structure) : structure := Structure (s_maxY s) (s_dx s) (s_dy s) (s_dz s) (s_X s) (s_Y s) (s_Z s) (s_blocks s) (s_borders s ++ [min_y]) (s_labels s ++ [label]).
