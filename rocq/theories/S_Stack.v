(** Specification vocabulary for stacks of junctions. *)
From Verif Require Export S_Ctor S_Drivers M_Stack.
Open Scope R_scope.

(** ** Resistance *)
Definition Total (xs : list R) : R := fold_right Rplus 0 xs.
Definition stack_resistance (k : stack_kind) (xs : list R) (r : R) : Prop :=
  match k with Series => r = Total xs | Parallel => ParallelOf xs r end.

(** ** Coupling *)
Definition coupling_at (s : stack) (i : nat) (c : R) : Prop :=
  s_coupling s = [c] \/ ((2 <= length (s_coupling s))%nat /\ nth_error (s_coupling s) i = Some c).
Definition top_mag (s : stack) (j : junction) (m : cvec) : Prop :=
  exists l, first_with (s_top s) j l /\ m = l_mag l.
Definition bottom_mag (s : stack) (j : junction) (m : cvec) : Prop :=
  exists l, first_with (s_bottom s) j l /\ m = l_mag l.
(** The common fixed polariser of the free layers. *)
Definition shared_reference (s : stack) (p : cvec) : Prop :=
  p <> Zero /\ s_js s <> [] /\
  forall j, In j (s_js s) -> exists l, first_with (s_top s) j l /\ l_reference l = p.
(** The polariser of a member: its bottom layer, or the common reference. *)
Definition polariser_of (s : stack) (two : bool) (j : junction) (p : cvec) : Prop :=
  if two then bottom_mag s j p else shared_reference s p.
(** All members are bilayers. *)
Definition bilayers (js : list junction) : Prop := forall j, In j js -> layerNo j = 2%nat.
(** The scan over the members: all bilayers, or a member with fewer layers comes before any with more. *)
Definition two_members (js : list junction) (two : bool) : Prop :=
  (two = true /\ bilayers js) \/
  (two = false /\ exists k j, nth_error js k = Some j /\ (layerNo j < 2)%nat /\
     forall q i, (q < k)%nat -> nth_error js q = Some i -> layerNo i = 2%nat).
(** Coupling term between members i and i+1: js before the step, js' after it. *)
Definition coupled_term (s : stack) (two : bool) (js js' : list junction) (i : nat) (c : R) : Prop :=
  exists j j1 k m1 m2 p, nth_error js i = Some j /\ nth_error js (S i) = Some j1 /\ coupling_at s i k /\
    top_mag s j1 m2 /\
    (if s_delayed s then top_mag s j m1 /\ polariser_of s two j p
     else exists j', nth_error js' i = Some j' /\ top_mag s j' m1 /\ bottom_mag s j' p) /\
    c = k * match s_kind s with Series => Dot m1 p + Dot m2 p | Parallel => Dot m1 p - Dot m2 p end.
Definition Product (xs : list R) : R := fold_right Rmult 1 xs.
(** Factor of the current of member q. *)
Definition factor (terms : list R) (q : nat) : R := Product (map (fun c => 1 + c) (firstn q terms)).
Definition phase_of (s : stack) (q : nat) : R :=
  match s_kind s with Series => s_phase s * INR q | Parallel => s_phase s end.
(** The same driver with both levels scaled and its phase shifted. *)
Definition rescaled (d : sdriver) (k ph : R) : sdriver :=
  SD (d_update d) (d_const d * k) (d_amp d * k) (d_freq d) (d_phase d + ph) (d_period d) (d_cycle d)
     (d_tstart d) (d_tstop d) (d_edge d) (d_steady d).
Definition with_current (d : sdriver) (j : junction) : junction :=
  set_j_layers (map (set_l_current d) (j_layers j)) j.
(** Magnetoresistance of a member. *)
Definition member_resistance (j : junction) (r : R) : Prop :=
  j_mode j = MR_CLASSIC /\
  match j_layers j with
  | [l] => r = GMR (j_Rp j) (j_Rap j) (Dot (l_mag l) (l_reference l))
  | [l0; l1] => r = GMR (j_Rp j) (j_Rap j) (Dot (l_mag l0) (l_mag l1))
  | _ => False
  end.
(** One step of all members. *)
Definition stack_step (s : stack) (two : bool) (r : runner) (t dt : R)
    (js : list junction) (terms : list R) (rcs : list (R * R)) (js' : list junction) : Prop :=
  (forall j, In j js -> (exists m, top_mag s j m) /\ exists p, polariser_of (set_s_js js s) two j p) /\
  length js' = length js /\ length rcs = length js /\ length terms = (length js - 1)%nat /\
  (forall i c, nth_error terms i = Some c -> coupled_term (set_s_js js s) two js js' i c) /\
  constructible (s_current s) /\
  forall q j j' x cur, nth_error js q = Some j -> nth_error js' q = Some j' -> nth_error rcs q = Some (x, cur) ->
    let d := rescaled (s_current s) (factor terms q) (phase_of s q) in
    j_layers j <> [] /\ run_runner r t dt (with_current d j) = (j', Ok tt) /\
    member_resistance j' x /\ getCurrentScalarValue d t = Ok cur.
(** Members as the constructor demands them. *)
Definition classic_members (js : list junction) : Prop :=
  forall j, In j js -> j_mode j = MR_CLASSIC.

(** ** Runs *)
(** A row of the stack's own log. *)
Definition current_key (q : nat) : string := ("I_" ++ to_string q)%string.
Definition stack_row (t r : R) (currents : list R) : list (string * R) :=
  ("Resistance"%string, r) :: mapi (fun q c => (current_key q, c)) 0 currents ++ [("time"%string, t)].
(** Effect of a run of N steps writing every w-th one: [sg k] are the members before step k. *)
Definition stack_effect (s0 : stack) (two : bool) (r : runner) (dt : R) (N w : nat) (s' : stack)
    (sg : nat -> list junction) (rcs : nat -> list (R * R)) (rows : list (list (string * R))) : Prop :=
  sg 0%nat = s_js s0 /\ (N = 0%nat \/ (w > 0)%nat) /\
  (forall k, (k < N)%nat -> exists terms, stack_step s0 two r (INR k * dt) dt (sg k) terms (rcs k) (sg (S k))) /\
  s' = set_s_log (s_log s') (set_s_js (s_js s') s0) /\
  length rows = rows_needed N w /\
  (forall k row, nth_error rows k = Some row -> exists x, stack_resistance (s_kind s0) (map fst (rcs (k * w)%nat)) x /\
     row = stack_row (INR (k * w) * dt) x (map snd (rcs (k * w)%nat))) /\
  (forall key, col key (s_log s') = (col key (s_log s0) ++ flat_map (values key) rows)%list) /\
  length (s_js s') = length (s_js s0) /\
  forall q j0 jN j', nth_error (s_js s0) q = Some j0 -> nth_error (sg N) q = Some jN -> nth_error (s_js s') q = Some j' ->
    j' = set_j_log (j_log j') (j_logLength j0 + rows_needed N w) jN /\
    exists mrows, rows_of false dt (fun k => nth q (sg k) j0) N w mrows /\
      forall key, col key (j_log j') = (col key (j_log j0) ++ flat_map (values key) mrows)%list.
(** Step counts: integer casts, negative quotients wrap around. *)
Definition wrapped_count (x : R) (n : nat) : Prop :=
  -2147483649 < x < 2147483648 /\
  ((x > -1 /\ IntegerPart x n) \/ (exists k, x <= -1 /\ INR k <= - x < INR k + 1 /\ n = Z.to_nat (4294967296 - Z.of_nat k))).
Definition stack_counts (T dt wf : R) (N w : nat) : Prop :=
  dt <> 0 /\ dt <= wf /\ wrapped_count (T / dt) N /\ wrapped_count (wf / dt) w.
(** Preparation: all members need the same mode; the last one's runner is used for all. *)
Definition stack_selects (N : nat) (s s0 : stack) (r : runner) : Prop :=
  s0 = set_s_js (map (fun j => set_j_layers (map prepared (j_layers j)) j) (s_js s)) s /\
  (forall j l, In j (s_js s) -> In l (j_layers j) -> preparable N l) /\
  exists used, (forall j, In j (s_js s) -> mode_table (exists l, In l (j_layers j) /\ noisy l) RK4 used) /\
    forall jl, last (map Some (s_js s)) None = Some jl -> r = runner_table (layerNo jl) used.

(** ** Call histories *)
Inductive stack_call :=
| KRun (T dt wf : R) | KClear | KOersted (d : adriver) | KExternal (d : adriver)
| KCurrent (d : sdriver) | KResetCurrent | KCoupling (c : R) | KCouplings (cs : list R) | KDelayed (b : bool)
| KMagnetisation (i : nat) (id : string) (m : cvec) | KAnisotropy (i : nat) (id : string) (k : sdriver)
| KSave (file : string).
Definition stack_do (a : stack_call) : ST stack unit :=
  match a with
  | KRun T dt wf => stack_runSimulation T dt wf
  | KClear => clearLogs
  | KOersted d => stack_setOerstedFieldDriver d
  | KExternal d => stack_setExternalFieldDriver d
  | KCurrent d => setCoupledCurrentDriver d
  | KResetCurrent => resetCoupledCurrentDriver
  | KCoupling c => setCouplingStrength1 c
  | KCouplings cs => setCouplingStrengthN cs
  | KDelayed b => setDelayed b
  | KMagnetisation i id m => stack_setMagnetisation i id m
  | KAnisotropy i id k => setJunctionAnisotropyDriver i id k
  | KSave f => bind (stack_saveLogs f) (fun _ => ret tt)
  end.
(** Accepted calls and calls that raise a C++ exception the caller catches. *)
Inductive stack_history : list stack_call -> stack -> stack -> Prop :=
| SH_nil s : stack_history [] s s
| SH_cons a calls s s1 s2 r : stack_do a s = (s1, r) -> (r = Ok tt \/ exists msg, r = Err (Throw msg)) ->
    stack_history calls s1 s2 -> stack_history (a :: calls) s s2.
Definition stack_keys (m : nat) : list string := "Resistance"%string :: "time"%string :: map current_key (seq 0 m).
(** All stack columns have n entries and nothing else is logged. *)
Definition stack_columns (s : stack) (n : nat) : Prop :=
  forall key, (In key (stack_keys (length (s_js s))) -> length (col key (s_log s)) = n) /\
              (~ In key (stack_keys (length (s_js s))) -> col key (s_log s) = []).
Definition fresh_member (j : junction) : Prop := exists ls, constructed ls j /\ NoDup (map l_id ls).

(** ** Settings *)
(** No coupling and no phase shift. *)
Definition uncoupled (s : stack) : Prop := (forall i k, coupling_at s i k -> k = 0) /\ s_phase s = 0.
(** Every layer of every member receives the setting and nothing else changes in the members. *)
Definition everywhere (x : setting) (js js' : list junction) : Prop :=
  length js' = length js /\ forall q j j', nth_error js q = Some j -> nth_error js' q = Some j' -> set_everywhere "all" x j j'.
(** No member is without layers. *)
Definition populated (js : list junction) : Prop := forall j, In j js -> j_layers j <> [].
(** Only member i changes, by P. *)
Definition member_changed (i : nat) (s s' : stack) (P : junction -> junction -> Prop) : Prop :=
  s' = set_s_js (s_js s') s /\ length (s_js s') = length (s_js s) /\
  (exists j j', nth_error (s_js s) i = Some j /\ nth_error (s_js s') i = Some j' /\ P j j') /\
  forall q, q <> i -> nth_error (s_js s') q = nth_error (s_js s) q.
