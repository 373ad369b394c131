(** Model of core/noise.hpp.  Random draws are streams held by the objects: [rand()] / the uniform,
    geometric and normal distributions deliver arbitrary values of which only the order is modelled.
    The parameters of the distributions (bias, std) shape the streams and do not occur here. *)
From Verif Require Export M_Layer.
Open Scope R_scope.
Open Scope st_scope.

(** [n] successive calls of a member that returns a number. *)
Fixpoint calls {S A} (tick : ST S A) (n : nat) : ST S (list A) :=
  match n with
  | O => ret []
  | S n' => a <- tick ;; rest <- calls tick n' ;; ret (a :: rest)
  end.

(** ** class PinkNoise *)
(** core/noise.hpp:59-62 *)
Record pink := PK { pk0 : R; pk1 : R; pk2 : R; pk_rand : nat -> R; pk_pos : nat }.
Definition pink_A0 : R := 2109238 / 100000000.
Definition pink_A1 : R := 7113478 / 100000000.
Definition pink_A2 : R := 68873558 / 100000000.
Definition pink_P0 : R := 3190 / 10000.
Definition pink_P1 : R := 7756 / 10000.
Definition pink_P2 : R := 9613 / 10000.
(** core/noise.hpp:38-41 *)
Definition pink_clear : ST pink unit := modify (fun k => PK 0 0 0 (pk_rand k) (pk_pos k)).
(** core/noise.hpp:33-36  seeding chooses the stream. *)
Definition mkPink (rand : nat -> R) : pink := PK 0 0 0 rand 0.
(** core/noise.hpp:43-56  [randmax] is RAND_MAX. *)
Definition pink_tick (randmax : R) : ST pink R := fun k =>
  let RMI2 := 2 / randmax in
  let offset := pink_A0 + pink_A1 + pink_A2 in
  let temp0 := pk_rand k (pk_pos k) in
  let s0 := pink_P0 * (pk0 k - temp0) + temp0 in
  let temp1 := pk_rand k (pk_pos k + 1) in
  let s1 := pink_P1 * (pk1 k - temp1) + temp1 in
  let temp2 := pk_rand k (pk_pos k + 2) in
  let s2 := pink_P2 * (pk2 k - temp2) + temp2 in
  (PK s0 s1 s2 (pk_rand k) (pk_pos k + 3),
   Ok ((pink_A0 * s0 + pink_A1 * s1 + pink_A2 * s2) * RMI2 - offset)).

(** ** class OneFNoise *)
(** core/noise.hpp:73-83  [sumTrack] is never used; [trials] is overwritten before it is read. *)
Record onef := OF { o_sources : nat; o_state : list R; o_scale : R;
                    o_unif : nat -> R; o_upos : nat; o_geom : nat -> nat; o_gpos : nat }.
(** core/noise.hpp:86-95  resizing to a negative size throws std::length_error. *)
Definition mkOneF (sources : Z) (scale : R) (unif : nat -> R) (geom : nat -> nat) : result onef :=
  if Z.ltb sources 0 then Err (Throw "vector::_M_default_append")
  else let n := Z.to_nat sources in
       Ok (OF n (map unif (seq 0 n)) scale unif n geom 0).
(** std::sort *)
Fixpoint insert_sorted (x : nat) (l : list nat) : list nat :=
  match l with
  | [] => [x]
  | y :: rest => if Nat.leb x y then x :: l else y :: insert_sorted x rest
  end.
Definition sort_list (l : list nat) : list nat := fold_right insert_sorted [] l.
(** std::unique up to the returned end *)
Fixpoint unique_list (l : list nat) : list nat :=
  match l with
  | a :: ((b :: _) as rest) => if Nat.eqb a b then unique_list rest else a :: unique_list rest
  | _ => l
  end.
(** core/noise.hpp:111-116, 128-132 *)
Fixpoint redraw (ts : list nat) (o : onef) : onef :=
  match ts with
  | [] => o
  | t :: rest =>
      redraw rest
        (if Nat.ltb t (o_sources o)
         then OF (o_sources o) (set_nth t (o_unif o (o_upos o)) (o_state o)) (o_scale o)
                 (o_unif o) (S (o_upos o)) (o_geom o) (o_gpos o)
         else o)
  end.
Definition draw_trials (o : onef) : list nat * onef :=
  (map (o_geom o) (seq (o_gpos o) (o_sources o)),
   OF (o_sources o) (o_state o) (o_scale o) (o_unif o) (o_upos o) (o_geom o) (o_gpos o + o_sources o)).
Definition onef_out (o : onef) : R := o_scale o * fold_left Rplus (o_state o) 0.
(** core/noise.hpp:101-118 *)
Definition onef_tick : ST onef R := fun o =>
  let (trials, o1) := draw_trials o in
  let o2 := redraw (unique_list (sort_list trials)) o1 in
  (o2, Ok (onef_out o2)).
(** core/noise.hpp:125-134 *)
Definition onef_tick2 : ST onef R := fun o =>
  let (trials, o1) := draw_trials o in
  let o2 := redraw trials o1 in
  (o2, Ok (onef_out o2)).

(** ** class BufferedAlphaNoise *)
Definition cplx : Type := (R * R)%type.
Definition cmul (a b : cplx) : cplx := (fst a * fst b - snd a * snd b, fst a * snd b + snd a * fst b).
Definition cadd (a b : cplx) : cplx := (fst a + fst b, snd a + snd b).
Definition chalf (a : cplx) : cplx := (fst a / 2, snd a / 2).
(** kissfft: the unnormalised discrete Fourier transform, forward (false) or inverse (true). *)
Definition twiddle (inverse : bool) (n k t : nat) : cplx :=
  let angle := 2 * PI * INR k * INR t / INR n in
  (cos angle, if inverse then sin angle else - sin angle).
Definition transform (inverse : bool) (xs : list cplx) : list cplx :=
  map (fun k => fold_left cadd
                  (map (fun t => cmul (nth t xs (0, 0)) (twiddle inverse (length xs) k t)) (seq 0 (length xs)))
                  (0, 0))
      (seq 0 (length xs)).
(** core/noise.hpp:139-150  [bufferWhite] and the two complex buffers are overwritten by every fill
    before they are read; [refills] is never used. *)
Record bnoise := BN { b_size : nat; b_scale : R; b_coloured : list cplx; b_result : list R;
                      b_counter : nat; b_gauss : nat -> R; b_gpos : nat }.
(** core/noise.hpp:172-176  [n] further weights, the next one being number [i]. *)
Fixpoint weights_from (alpha prev : R) (i n : nat) : list R :=
  match n with
  | O => []
  | S n' => let w := prev * ((1 / 2 * alpha + INR (i - 1)) / INR i) in
            w :: weights_from alpha w (S i) n'
  end.
(** core/noise.hpp:161-185  an empty buffer is written out of bounds. *)
Definition mkBuffered (bufferSize : nat) (alpha scale : R) (gauss : nat -> R) : result bnoise :=
  match bufferSize with
  | O => Err Undefined
  | S n => Ok (BN bufferSize scale
                  (map (fun w => (w, 0)) (1 :: weights_from alpha 1 1 n) ++ repeat (0, 0) bufferSize)%list
                  (repeat 0 bufferSize) 0 gauss 0)
  end.
Fixpoint map2 {A} (f : A -> A -> A) (xs ys : list A) : list A :=
  match xs, ys with x :: xs', y :: ys' => f x y :: map2 f xs' ys' | _, _ => [] end.
Definition halve_at (i : nat) (xs : list cplx) : list cplx := set_nth i (chalf (nth i xs (0, 0))) xs.
(** core/noise.hpp:189-226  the second half of [bufferColoured] is cleared again. *)
Definition fillBuffer (b : bnoise) : bnoise :=
  let n := b_size b in
  let white := (map (fun k => (b_gauss b k, 0)) (seq (b_gpos b) n) ++ repeat (0, 0) n)%list in
  let coloured := (firstn n (b_coloured b) ++ repeat (0, 0) n)%list in
  let whiteComplex := transform false white in
  let colouredComplex := transform false coloured in
  let product := map2 cmul (firstn n colouredComplex) (firstn n whiteComplex) in
  let filtered := (halve_at (n - 1) (halve_at 0 product) ++ repeat (0, 0) n)%list in
  let back := transform true filtered in
  BN n (b_scale b) coloured (map (fun x => fst x / INR n) (firstn n back)) (b_counter b)
     (b_gauss b) (b_gpos b + n).
(** core/noise.hpp:228 *)
Definition getFullBuffer (b : bnoise) : list R := b_result b.
(** core/noise.hpp:231-239 *)
Definition buffered_tick : ST bnoise R := fun b =>
  let b1 := if Nat.eqb (b_counter b) 0 then fillBuffer b else b in
  match nth_error (b_result b1) (b_counter b1) with
  | None => (b1, Err Undefined)
  | Some r =>
      if Nat.eqb (b_size b1) 0 then (b1, Err Undefined)
      else (BN (b_size b1) (b_scale b1) (b_coloured b1) (b_result b1) (S (b_counter b1) mod b_size b1)
               (b_gauss b1) (b_gpos b1), Ok (b_scale b1 * r))
  end.

(** ** class VectorAlphaNoise *)
(** core/noise.hpp:65-70, 246 *)
Inductive ticker := NullTicker | Buffered (b : bnoise).
Definition ticker_tick : ST ticker R := fun t =>
  match t with
  | NullTicker => (t, Ok 0)
  | Buffered b => match buffered_tick b with (b', r) => (Buffered b', r) end
  end.
(** core/noise.hpp:243-248 *)
Record vectornoise := VNO { w_scale : R; w_x : ticker; w_y : ticker; w_z : ticker;
                            w_prev : cvec; w_cur : cvec; w_normalized : bool }.
(** core/noise.hpp:251-288  each component draws from the shared generator through its own
    distribution: three streams. *)
Definition mkVectorNoise (bufferSize : nat) (alpha scale : R) (a : axis) (gx gy gz : nat -> R)
  : result vectornoise :=
  match a with
  | all_axes =>
      bx <-- mkBuffered bufferSize alpha 1 gx ;;
      by_ <-- mkBuffered bufferSize alpha 1 gy ;;
      bz <-- mkBuffered bufferSize alpha 1 gz ;;
      Ok (VNO scale (Buffered bx) (Buffered by_) (Buffered bz) vnull vnull true)
  | xaxis => b <-- mkBuffered bufferSize alpha 1 gx ;;
             Ok (VNO scale (Buffered b) NullTicker NullTicker vnull vnull false)
  | yaxis => b <-- mkBuffered bufferSize alpha 1 gy ;;
             Ok (VNO scale NullTicker (Buffered b) NullTicker vnull vnull false)
  | zaxis => b <-- mkBuffered bufferSize alpha 1 gz ;;
             Ok (VNO scale NullTicker NullTicker (Buffered b) vnull vnull false)
  | none_axis => Err (Throw "Invalid axis specified")
  end.
(** A member call on one of the components. *)
Definition tick_x : ST vectornoise R := fun v =>
  match ticker_tick (w_x v) with
  | (t, r) => (VNO (w_scale v) t (w_y v) (w_z v) (w_prev v) (w_cur v) (w_normalized v), r)
  end.
Definition tick_y : ST vectornoise R := fun v =>
  match ticker_tick (w_y v) with
  | (t, r) => (VNO (w_scale v) (w_x v) t (w_z v) (w_prev v) (w_cur v) (w_normalized v), r)
  end.
Definition tick_z : ST vectornoise R := fun v =>
  match ticker_tick (w_z v) with
  | (t, r) => (VNO (w_scale v) (w_x v) (w_y v) t (w_prev v) (w_cur v) (w_normalized v), r)
  end.
(** core/noise.hpp:290-300 *)
Definition noise_tickVector : ST vectornoise cvec :=
  modify (fun v => VNO (w_scale v) (w_x v) (w_y v) (w_z v) (w_cur v) (w_cur v) (w_normalized v)) ;;;
  x <- tick_x ;; y <- tick_y ;; z <- tick_z ;;
  modify (fun v => VNO (w_scale v) (w_x v) (w_y v) (w_z v) (w_prev v)
                       (if w_normalized v then vnormalize (CV x y z) else CV x y z) (w_normalized v)) ;;;
  v <- get ;;
  ret (vscale (w_cur v) (w_scale v)).
(** core/noise.hpp:302 *)
Definition noise_tick : ST vectornoise R := x <- tick_x ;; v <- get ;; ret (x * w_scale v).
(** core/noise.hpp:304-306 *)
Definition getPrevSample (v : vectornoise) : cvec := w_prev v.
Definition getScale (v : vectornoise) : R := w_scale v.
