(** What EnergyCompute is supposed to return (independent of the model's helpers). *)
From Verif Require Export M_Energy S_Run.
From Coq Require Import String Ascii List.
Open Scope R_scope.

(** ** Strings *)
Definition Infix (sub s : string) : Prop := exists a b, s = (a ++ sub ++ b)%string.
Definition Starts (p s : string) : Prop := exists b, s = (p ++ b)%string.
Definition Ends (p s : string) : Prop := exists a, s = (a ++ p)%string.
(** No underscore. *)
Definition plain (s : string) : Prop := ~ Infix "_" s.
(** [p] is what stands before the first underscore of [k]. *)
Definition first_word (k p : string) : Prop := plain p /\ (k = p \/ exists r, k = (p ++ "_" ++ r)%string).
(** [r] is [s] with every "_mx" taken out, from left to right. *)
Inductive Erased : string -> string -> Prop :=
| Erased_nil : Erased "" ""
| Erased_mx s r : Erased s r -> Erased ("_mx" ++ s) r
| Erased_keep c s r : ~ Starts "_mx" (String c s) -> Erased s r -> Erased (String c s) (String c r).

(** ** Reading vectors from the log *)
Definition reads (g : log_t) (k : string) (vs : list cvec) : Prop :=
  log_get (k ++ "x") g = Some (map cx vs) /\ log_get (k ++ "y") g = Some (map cy vs) /\ log_get (k ++ "z") g = Some (map cz vs).
Definition keys (g : log_t) : list string := map fst g.
(** Names of vector columns with "_H" in them. *)
Definition field_key (g : log_t) (f : string) : Prop := exists c, In (f ++ String c "")%string (keys g) /\ Infix "_H" (f ++ String c "").
Definition mag_name (g : log_t) (p : string) : Prop := exists key, In key (keys g) /\ Infix "_mx" key /\ Erased key p.
(** Magnetisation and field of every sample; a single one stands for all. *)
Definition Paired (m h : list cvec) (ps : list (cvec * cvec)) : Prop :=
  (length m = length h /\ map fst ps = m /\ map snd ps = h) \/
  (length m <> 1%nat /\ exists h0, h = [h0] /\ ps = map (fun v => (v, h0)) m) \/
  (length h <> 1%nat /\ exists m0, m = [m0] /\ ps = map (fun v => (m0, v)) h).
(** What the energy is divided by. *)
Definition per (S t : R) (f : string) (A : R) : Prop := (Infix "J_" f /\ A = S) \/ (~ Infix "J_" f /\ A = S * t).
Definition energy_entry (S t : R) (g : log_t) (f : string) (v : list R) : Prop :=
  exists p m h ps A, first_word f p /\ mag_name g p /\ reads g (p ++ "_m") m /\ reads g f h /\ Paired m h ps /\ per S t f A /\
    (ps = [] \/ A <> 0) /\ v = map (fun mh => - Dot (fst mh) (snd mh) / A) ps.
Definition energy_table (S t : R) (g : log_t) (data : list (string * list R)) : Prop :=
  (forall p, mag_name g p -> exists m, reads g (p ++ "_m") m) /\ NoDup (map fst data) /\
  (forall k v, In (k, v) data <-> exists f, k = ("energy_" ++ f)%string /\ field_key g f /\ energy_entry S t g f v) /\
  (forall f, field_key g f -> exists v, energy_entry S t g f v).

(** ** Runs *)
(** The logged fields of a layer. *)
Inductive field_tag (sot : bool) : string -> (lcache -> cvec) -> Prop :=
| tag_ext : field_tag sot "Hext" c_Hext
| tag_iec : field_tag sot "Hiec" c_HIEC
| tag_anis : field_tag sot "Hanis" c_HAnis
| tag_demag : field_tag sot "Hdemag" c_Hdemag
| tag_th : field_tag sot "Hth" c_Hfluctuation
| tag_fl : sot = true -> field_tag sot "Hfl" c_Hfl_v
| tag_dl : sot = true -> field_tag sot "Hdl" c_Hdl_v.
(** Ids the column names can be taken apart with. *)
Definition clear_ids (j : junction) : Prop :=
  (forall id, In id (ids j) -> plain id) /\
  (j_mode j = MR_CLASSIC -> (1 < length (j_layers j))%nat -> forall id, In id (ids j) -> ~ Starts "H" id /\ ~ Starts "mx" id).
