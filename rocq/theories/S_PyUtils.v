(** What the search helpers are expected to do. *)
From Verif Require Export S_Geom M_PyUtils.
From Coq Require Export Permutation.
Open Scope R_scope.

(** ** Roots *)
Definition within (a b x : R) : Prop := a <= x <= b.
(** All pairs at least [d] apart. *)
Definition apart (d : R) (xs : list R) : Prop := ForallOrdPairs (fun a b => d <= Rabs (a - b)) xs.
(** A guess is passed over when an earlier one led to a root beyond it. *)
Inductive searched (find_root : R -> option R) (a b d : R) : R -> list R -> list R -> list R -> Prop :=
| se_end c rs : searched find_root a b d c [] rs rs
| se_behind c x0 gs rs rs' : x0 < c -> searched find_root a b d c gs rs rs' -> searched find_root a b d c (x0 :: gs) rs rs'
| se_fail c x0 gs rs rs' : c <= x0 -> find_root x0 = None -> searched find_root a b d c gs rs rs' -> searched find_root a b d c (x0 :: gs) rs rs'
| se_outside c x0 x gs rs rs' : c <= x0 -> find_root x0 = Some x -> ~ within a b x -> searched find_root a b d x gs rs rs' -> searched find_root a b d c (x0 :: gs) rs rs'
| se_known c x0 x r gs rs rs' : c <= x0 -> find_root x0 = Some x -> In r rs -> Rabs (r - x) < d -> searched find_root a b d x gs rs rs' -> searched find_root a b d c (x0 :: gs) rs rs'
| se_new c x0 x gs rs rs' : c <= x0 -> find_root x0 = Some x -> within a b x -> (forall r, In r rs -> d <= Rabs (r - x)) ->
    searched find_root a b d x gs (rs ++ [x])%list rs' -> searched find_root a b d c (x0 :: gs) rs rs'.

(** ** Parameter grids *)
(** The values at the given positions of the spaces. *)
Inductive picks : list (list R) -> list nat -> list R -> Prop :=
| pk_nil : picks [] [] []
| pk_cons s ss i is v vs : nth_error s i = Some v -> picks ss is vs -> picks (s :: ss) (i :: is) (v :: vs).
(** No earlier position holds the same value. *)
Definition first_pick (spaces : list (list R)) (ix : list nat) (vs : list R) : Prop :=
  picks spaces ix vs /\ forall jx, picks spaces jx vs -> Forall2 le ix jx.

(** A shuffle of n tasks (None: not shuffled). *)
Definition is_shuffle (n : nat) (o : option (list nat)) : Prop := match o with None => True | Some l => Permutation l (seq 0 n) end.

(** ** Coordinate descent *)
(** Candidates in the order in which they are tried. *)
Definition candidates (op : pdict) (n : nat) (p : R) (cs : list (string * R)) : Prop :=
  exists vss, Forall2 (fun (kv : string * R) vs => evenly ((1 - p) * snd kv) ((1 + p) * snd kv) n vs) op vss /\
    cs = flat_map (fun q => map (fun v => (fst (fst q), v)) (snd q)) (combine op vss).
(** [above b x]: x beats the best value b so far. *)
Definition above (x : R) (b : option R) : Prop := match b with None => True | Some y => y < x end.
(** The last candidate that beats everything tried before it, [None] if no candidate beats the start value;
    [best] is the best value after the whole list. *)
Inductive last_record (score : string * R -> R) : option R -> list (string * R) -> option (string * R) -> option R -> Prop :=
| lr_nil b : last_record score b [] None b
| lr_beaten b c cs q b' : above (score c) b -> last_record score (Some (score c)) cs (Some q) b' -> last_record score b (c :: cs) (Some q) b'
| lr_record b c cs b' : above (score c) b -> last_record score (Some (score c)) cs None b' -> last_record score b (c :: cs) (Some c) b'
| lr_skip b c cs q b' : ~ above (score c) b -> last_record score b cs q b' -> last_record score b (c :: cs) q b'.
(** The dictionary returned when the last improvement was candidate [q]. *)
Definition final_dict (op : pdict) (n : nat) (p : R) (q : option (string * R)) (d : pdict) : Prop :=
  match q with
  | None => d = op
  | Some (k, _) => exists v0 vs, In (k, v0) op /\ evenly ((1 - p) * v0) ((1 + p) * v0) n vs /\ d = dict_set k (last vs 0) op
  end.
