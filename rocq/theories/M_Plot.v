(** Model of the geometry of cmtj/utils/plotting.py: what is drawn where.  Colours, fonts and matplotlib itself are left out. *)
From Verif Require Export M_PyUtils.
Open Scope R_scope.
Open Scope st_scope.

(** [l[i]] for a Python list *)
Definition list_item {A} (l : list A) (i : nat) : result A :=
  match nth_error l i with Some x => Ok x | None => Err (Throw "list index out of range") end.

(** ** Trajectories *)
(** plotting.py:9-18; point (i, j) of the 100 by 100 grid *)
Definition sphere_point (i j : nat) : cvec :=
  let phi := INR i * (PI / 99) in
  let theta := INR j * (2 * PI / 99) in
  CV (sin phi * cos theta) (sin phi * sin theta) (cos phi).
Definition get_sphere : list (list cvec) := map (fun i => map (sphere_point i) (seq 0 100)) (seq 0 100).
Fixpoint points3 (x y z : list R) : list cvec :=
  match x, y, z with a :: x', b :: y', c :: z' => CV a b c :: points3 x' y' z' | _, _, _ => [] end.
(** plotting.py:32-34: the curve drawn; lists of different lengths do not make an array. *)
Definition plot_trajectory_sphere (x y z : list R) : result (list cvec) :=
  if (Nat.eqb (length x) (length y) && Nat.eqb (length y) (length z))%bool then
    let m := points3 x y z in
    let norm := sqrt (fold_right (fun p acc => cx p ^ 2 + cy p ^ 2 + cz p ^ 2 + acc) 0 m) in
    rmap (fun p => a <-- fdiv (cx p) norm ;; b <-- fdiv (cy p) norm ;; c <-- fdiv (cz p) norm ;; Ok (CV a b c)) m
  else Err (Throw "setting an array element with a sequence.").
(** plotting.py:70-72: the segments drawn *)
Definition plot_coloured_trajectory (x y z : list R) : result (list (cvec * cvec)) :=
  if (Nat.eqb (length x) (length y) && Nat.eqb (length y) (length z))%bool then
    let points := points3 x y z in Ok (combine (removelast points) (tl points))
  else Err (Throw "setting an array element with a sequence.").

(** ** Maps *)
(** [itertools.permutations(range(n), r)] as documented: the tuples without repetitions, in lexicographic order *)
Fixpoint tuples (n r : nat) : list (list nat) :=
  match r with O => [[]] | S k => flat_map (fun i => map (cons i) (tuples n k)) (seq 0 n) end.
Fixpoint unrepeated (l : list nat) : bool :=
  match l with [] => true | i :: rest => (negb (existsb (Nat.eqb i) rest) && unrepeated rest)%bool end.
Definition permutations (n r : nat) : list (list nat) := filter unrepeated (tuples n r).
(** A numpy array; too few indices give a subarray, which is not represented. *)
Record ndarray := ND { nd_shape : list nat; nd_data : list nat -> R }.
Definition at_index (m : ndarray) (idx : list nat) : result R :=
  if Nat.ltb (length (nd_shape m)) (length idx) then Err (Throw "too many indices for array")
  else if negb (forallb (fun p => Nat.ltb (fst p) (snd p)) (combine idx (nd_shape m))) then Err (Throw "index is out of bounds")
  else if Nat.ltb (length idx) (length (nd_shape m)) then Err Undefined
  else Ok (nd_data m idx).
(** plotting.py:99-116: one entry, then all of them *)
Definition unpack_entry (m : ndarray) (axes : list (list R)) (idx : list nat) : result (list R * R) :=
  v <-- at_index m idx ;;
  cs <-- rmap (fun p => list_item (fst p) (snd p)) (combine axes idx) ;;
  Ok (cs, v).
Definition unpack_ndim_map (m : ndarray) (axes : list (list R)) : result (list (list R) * list R) :=
  first <-- list_item axes 0 ;;
  rows <-- rmap (unpack_entry m axes) (permutations (length first) (length axes)) ;;
  Ok (map (fun i => map (fun r => nth i (fst r) 0) rows) (seq 0 (length axes)), map snd rows).

(** ** Parallel coordinates *)
(** plotting.py:148-153: the padded limits of a column *)
Definition col_min (l : list R) : R := match l with [] => 0 | x :: rest => fold_left Rmin rest x end.
Definition col_max (l : list R) : R := match l with [] => 0 | x :: rest => fold_left Rmax rest x end.
Definition limits (l : list R) : R * R :=
  let ymin := col_min l in let ymax := col_max l in let dy := ymax - ymin in
  (ymin - dy * (5 / 100), ymax + dy * (5 / 100)).
Definition span (p : R * R) : R := snd p - fst p.
Definition column (ys : list (list R)) (c : nat) : list R := map (fun row => nth c row 0) ys.
(** plotting.py:138, 142-158; [ys] are the rows kept (all of them or a sample), [width] is the number of columns. *)
Definition scale_row (ys : list (list R)) (width : nat) (row : list R) : result (list R) :=
  let l0 := limits (column ys 0) in
  rmap (fun c => if Nat.eqb c 0 then Ok (nth 0 row 0)
                 else let l := limits (column ys c) in
                      q <-- fdiv (nth c row 0 - fst l) (span l) ;; Ok (q * span l0 + fst l0)) (seq 0 width).
Definition scale_rows (ys : list (list R)) (width : nat) : result (list (list R)) :=
  match ys with
  | [] => Err (Throw "min() arg is an empty sequence")
  | _ => rmap (scale_row ys width) ys
  end.
(** plotting.py:184-189: the control points of the curve of one row; [n] is the number of rows. *)
Definition curve_points (n : nat) (zs : list R) : result (list (R * R)) :=
  xs <-- linspace 0 (INR n - 1) (Z.of_nat n * 3 - 2) ;;
  Ok (combine xs (removelast (tl (flat_map (fun z => [z; z; z]) zs)))).

(** ** Stacks *)
Record stack_plot (C L : Type) := StackPlot {
  sp_rects : list (R * R * R * R * C); sp_texts : list (R * R * L); sp_arrows : list (R * R * (R * R)); sp_xlim : R * R; sp_ylim : R * R }.
Arguments StackPlot {C L}. Arguments sp_rects {C L}. Arguments sp_texts {C L}. Arguments sp_arrows {C L}. Arguments sp_xlim {C L}. Arguments sp_ylim {C L}.
(** plotting.py:204-205 applied to (r, 0) *)
Definition arrow_vector (r angle : R) : R * R := (cos (deg2rad angle) * r - sin (deg2rad angle) * 0, sin (deg2rad angle) * r + cos (deg2rad angle) * 0).
(** plotting.py:248-276: rectangles as corner, width, height and colour; texts; arrows as tail and tip; the height reached *)
Fixpoint stack_loop {C L} (width labelpad_left offset_x r : R) (heights : list R) (angles : list (option R)) (colors : list C) (labels : list L) (offset_y : R)
    : list (R * R * R * R * C) * list (R * R * L) * list (R * R * (R * R)) * R :=
  match heights, angles, colors, labels with
  | height :: hs, angle :: angs, color :: cs, label :: ls =>
      let '(rects, texts, arrows, top) := stack_loop width labelpad_left offset_x r hs angs cs ls (offset_y + height) in
      let drawn := match angle with
                   | None => []
                   | Some a =>
                       let (dx, dy) := arrow_vector r a in
                       let centre_x := (offset_x + width) / 2 - dx / 2 in
                       let centre_y := offset_y + height / 2 - dy / 2 in
                       [(centre_x, centre_y, (centre_x + dx, centre_y + dy))]
                   end in
      ((offset_x, offset_y, width, height, color) :: rects, (offset_x - labelpad_left, offset_y + height / 2, label) :: texts, (drawn ++ arrows)%list, top)
  | _, _, _, _ => ([], [], [], offset_y)
  end.
(** plotting.py:208-279; [reversed] is true by default. *)
Definition create_stack {C L} (colors : list C) (heights : list R) (angles : list (option R)) (labels : list L)
    (width labelpad_left offset_x offset_y r : R) (reversed : bool) : result (stack_plot C L) :=
  let heights := if reversed then rev heights else heights in
  let colors := if reversed then rev colors else colors in
  let angles := if reversed then rev angles else angles in
  let labels := if reversed then rev labels else labels in
  let '(rects, texts, arrows, top) := stack_loop width labelpad_left offset_x r heights angles colors labels offset_y in
  match heights with
  | [] => Err (Throw "max() arg is an empty sequence")
  | _ => let biggest := col_max heights in
         Ok (StackPlot rects texts arrows (offset_x - width / 2, offset_x + width + width / 2) (offset_y - biggest / 2, top + biggest / 2))
  end.
