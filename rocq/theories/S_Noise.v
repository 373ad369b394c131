(** Specification vocabulary for the noise generators. *)
From Coq Require Export Sorted.
From Verif Require Export M_Noise S_Layer.
Open Scope R_scope.

(** f 0 + ... + f (n-1) *)
Fixpoint Rsum (f : nat -> R) (n : nat) : R :=
  match n with O => 0 | S k => Rsum f k + f k end.

(** ** Pink noise *)
(** Exponentially weighted sum of the first [k] draws. *)
Definition stage (p : R) (draws : nat -> R) (k : nat) : R :=
  Rsum (fun j => (1 - p) * p ^ (k - 1 - j) * draws j) k.
(** The sample of tick [k] (counted from 0) of a fresh generator. *)
Definition pink_sample (M : R) (rand : nat -> R) (k : nat) : R :=
  2 / M * (2109238 / 100000000 * stage (3190 / 10000) (fun j => rand (3 * j)%nat) (S k)
         + 7113478 / 100000000 * stage (7756 / 10000) (fun j => rand (3 * j + 1)%nat) (S k)
         + 68873558 / 100000000 * stage (9613 / 10000) (fun j => rand (3 * j + 2)%nat) (S k))
  - 78096274 / 100000000.

(** ** 1/f noise *)
Definition total (s : list R) : R := fold_right Rplus 0 s.
(** The different cells among the trials, in rising order. *)
Definition picked (n : nat) (trials cells : list nat) : Prop :=
  StronglySorted lt cells /\ forall t, In t cells <-> In t trials /\ (t < n)%nat.
(** The given cells get fresh values in the order of the list, the others keep theirs. *)
Definition refreshed (fresh : nat -> R) (cells : list nat) (s s' : list R) : Prop :=
  length s' = length s /\
  (forall i c, nth_error cells i = Some c -> nth_error s' c = Some (fresh i)) /\
  forall c, ~ In c cells -> nth_error s' c = nth_error s c.
(** The same with repetitions: the last visit counts. *)
Definition revisited (fresh : nat -> R) (cells : list nat) (s s' : list R) : Prop :=
  length s' = length s /\
  (forall i c, nth_error cells i = Some c -> (forall i', (i < i')%nat -> nth_error cells i' <> Some c) ->
     nth_error s' c = Some (fresh i)) /\
  forall c, ~ In c cells -> nth_error s' c = nth_error s c.
Definition onef_moved (o o' : onef) (cells : list nat) : Prop :=
  o' = OF (o_sources o) (o_state o') (o_scale o) (o_unif o) (o_upos o + length cells) (o_geom o) (o_gpos o + o_sources o).
Definition trials_of (o : onef) : list nat := map (o_geom o) (seq (o_gpos o) (o_sources o)).
(** A generator as reached by calls: one value in [0,1] per source. *)
Definition in_unit (o : onef) : Prop :=
  length (o_state o) = o_sources o /\ (forall x, In x (o_state o) -> 0 <= x <= 1) /\ forall i, 0 <= o_unif o i <= 1.

(** ** Buffered coloured noise *)
(** Filter coefficients of 1/f^alpha. *)
Fixpoint filter_weight (alpha : R) (i : nat) : R :=
  match i with O => 1 | S j => filter_weight alpha j * ((alpha / 2 + INR j) / INR (S j)) end.
(** The lines of the spectrum that are kept: the first and the last of the [N] kept lines count half. *)
Definition line_factor (N k : nat) : R :=
  (if Nat.eqb k 0 then 1 / 2 else 1) * (if Nat.eqb k (N - 1) then 1 / 2 else 1).
Definition buffer_entry (N : nat) (alpha : R) (white : nat -> R) (i : nat) : R :=
  / INR N * Rsum (fun k => line_factor N k *
    Rsum (fun a => Rsum (fun b => filter_weight alpha a * white b *
                                   cos (PI * INR k * (INR i - INR a - INR b) / INR N)) N) N) N.
(** Sample number [k] of a generator that refills every [N] samples. *)
Definition coloured_sample (N : nat) (alpha : R) (gauss : nat -> R) (k : nat) : R :=
  buffer_entry N alpha (fun b => gauss (k / N * N + b)%nat) (k mod N).
(** Plain causal filtering. *)
Definition convolution (h w : nat -> R) (i : nat) : R := Rsum (fun a => h a * w (i - a)%nat) (S i).

(** ** Vector noise *)
Definition axis_sample (a : axis) (x y z : R) (c : cvec) : Prop :=
  match a with
  | xaxis => c = CV x 0 0
  | yaxis => c = CV 0 y 0
  | zaxis => c = CV 0 0 z
  | all_axes => (CV x y z = Zero /\ c = Zero) \/
                (CV x y z <> Zero /\ c = Scal (/ Norm (CV x y z)) (CV x y z))
  | none_axis => False
  end.
(** Calls in any order: [true] is tickVector, [false] is tick. *)
Fixpoint noise_calls (ops : list bool) : ST vectornoise (list (cvec + R)) :=
  match ops with
  | [] => ret []
  | true :: rest => bind noise_tickVector (fun c => bind (noise_calls rest) (fun r => ret (inl c :: r)))
  | false :: rest => bind noise_tick (fun x => bind (noise_calls rest) (fun r => ret (inr x :: r)))
  end.
Definition count_true (ops : list bool) : nat := length (filter (fun b => b) ops).
Definition has_x (a : axis) : Prop := a = xaxis \/ a = all_axes.
