(** C59 (constructors), C61 (cell energies) and C62 (getters, saved table, own settings of a layer). *)
From Verif Require Import P_Ctor.
Open Scope R_scope.

(** ** C59 *)
(** A layer is accepted exactly when the magnetisation and the anisotropy axis are not null; it is then
    undriven, noiseless, and holds what the caller gave. *)
Theorem c59_layer : forall k rng nsrc id mag anis Ms th S N a l,
  construct k rng nsrc id mag anis Ms th S N a = Ok l ->
  mag <> Zero /\ anis <> Zero /\ fresh rng nsrc l /\ material l id mag anis Ms th S N a /\ kind_setup k l.
Proof. exact construct_sound. Qed.
Theorem c59_layer_accepted : forall k rng nsrc id mag anis Ms th S N a, mag <> Zero -> anis <> Zero ->
  exists l, construct k rng nsrc id mag anis Ms th S N a = Ok l /\ fresh rng nsrc l /\
    material l id mag anis Ms th S N a /\ kind_setup k l.
Proof. exact construct_ok. Qed.
Theorem c59_layer_refused : forall k rng nsrc id mag anis Ms th S N a, mag = Zero \/ anis = Zero ->
  exists msg, construct k rng nsrc id mag anis Ms th S N a = Err (Throw msg).
Proof. exact construct_refused. Qed.
(** A freshly built plain layer moves under its demagnetising field only. *)
Theorem c59_fresh_motion : forall k rng nsrc id mag anis Ms th S N a l t m d,
  construct k rng nsrc id mag anis Ms th S N a = Ok l -> k = KPlain -> Ms <> 0 -> th <> 0 ->
  (rhs l t m Zero Zero d <-> d = LLG_plain a m (Scal (-1) (H_tensor N Ms m))).
Proof. exact fresh_rhs. Qed.
(** The constructor keeps the magnetisation as given; only [setMagnetisation] normalises. *)
Theorem c59_unit_magnetisation_refuted : exists rng nsrc id mag anis Ms th S N a l,
  construct KPlain rng nsrc id mag anis Ms th S N a = Ok l /\ Norm2 (l_mag l) <> 1.
Proof. exact ctor_not_normalised. Qed.
Theorem c59_junction_plain : forall ls, ls <> [] -> exists j, Junction_plain ls = Ok j /\
  empty_junction ls MR_NONE j /\ no_strip j /\ j_Rp j = 0 /\ j_Rap j = 0 /\ j_Rtag j = "R"%string.
Proof. exact plain_junction_ok. Qed.
Theorem c59_no_layers_refused : exists m1 m2 m3, Junction_plain [] = Err (Throw m1) /\
  (forall Rp Rap, Junction_classic [] Rp Rap = Err (Throw m2)) /\
  (forall a b c d e f g, Junction_strip [] a b c d e f g = Err (Throw m3)).
Proof. exact empty_refused. Qed.
(** One layer needs its fixed reference vector. *)
Theorem c59_junction_classic_one : forall l Rp Rap, l_reference l <> Zero ->
  exists j, Junction_classic [l] Rp Rap = Ok j /\ empty_junction [l] MR_CLASSIC j /\ no_strip j /\
    j_Rp j = Rp /\ j_Rap j = Rap /\ j_Rtag j = "R"%string.
Proof. exact classic_one. Qed.
Theorem c59_junction_classic_one_refused : forall l Rp Rap, l_reference l = Zero ->
  exists msg, Junction_classic [l] Rp Rap = Err (Throw msg).
Proof. exact classic_one_refused. Qed.
Theorem c59_junction_classic_two : forall l0 l1 Rp Rap,
  exists j, Junction_classic [l0; l1] Rp Rap = Ok j /\ empty_junction [l0; l1] MR_CLASSIC j /\ no_strip j /\
    j_Rp j = Rp /\ j_Rap j = Rap /\ j_Rtag j = ("R_" ++ l_id l0 ++ "_" ++ l_id l1)%string.
Proof. exact classic_two_ok. Qed.
Theorem c59_junction_classic_many_refused : forall ls Rp Rap, (2 < length ls)%nat ->
  exists msg, Junction_classic ls Rp Rap = Err (Throw msg).
Proof. exact classic_many_refused. Qed.
(** The strip constructor wants one value per layer in each of its seven lists. *)
Theorem c59_junction_strip : forall ls Rx0 Ry0 AX AY SX SY AHE,
  (ls <> [] /\ length Rx0 = length ls /\ length Ry0 = length ls /\ length AX = length ls /\ length AY = length ls /\
   length SX = length ls /\ length SY = length ls /\ length AHE = length ls ->
   exists j, Junction_strip ls Rx0 Ry0 AX AY SX SY AHE = Ok j /\ empty_junction ls MR_STRIP j /\
     j_Rp j = 0 /\ j_Rap j = 0 /\ j_Rx0 j = Rx0 /\ j_Ry0 j = Ry0 /\ j_AMR_X j = AX /\ j_AMR_Y j = AY /\
     j_SMR_X j = SX /\ j_SMR_Y j = SY /\ j_AHE j = AHE /\ j_Rtag j = "R"%string) /\
  (~ (ls <> [] /\ length Rx0 = length ls /\ length Ry0 = length ls /\ length AX = length ls /\ length AY = length ls /\
   length SX = length ls /\ length SY = length ls /\ length AHE = length ls) ->
   exists msg, Junction_strip ls Rx0 Ry0 AX AY SX SY AHE = Err (Throw msg)).
Proof. exact strip_iff. Qed.

Example c59_ex_layer : CV 0 0 1 <> Zero /\ CV 1 0 0 <> Zero.
Proof. split; intros H; injection H; intros; lra. Qed.
Example c59_ex_junctions : exists l0 l1 j, l_reference l0 <> Zero /\ Junction_plain [l0; l1] = Ok j /\
  length (j_layers j) = 2%nat /\ l_id l0 <> l_id l1.
Proof. exact ctor_example. Qed.

(** ** C61 *)
(** Each energy is linear or quadratic with the layer's own field as minus its gradient per moment [Ms V];
    the Zeeman and demagnetising energies carry a further factor mu0. *)
Theorem c61_exchange : forall m d o J S t Ms, Ms <> 0 -> t <> 0 ->
  calculateIECEnergy (Plus m d) o J S - calculateIECEnergy m o J S =
  - (Ms * (S * t)) * Dot d (H_iec J 0 (Ms * t) m o).
Proof. exact iec_gradient. Qed.
Theorem c61_exchange_symmetric : forall m o J S, calculateIECEnergy m o J S = calculateIECEnergy o m J S.
Proof. exact iec_symmetric. Qed.
Theorem c61_exchange_value : forall m o J S, calculateIECEnergy m o J S = - (J * S) * Dot m o.
Proof. exact iec_val. Qed.
Theorem c61_anisotropy_value : forall m a K V e, calculateAnisotropyEnergy m a K V = Ok e <->
  m <> Zero /\ a <> Zero /\ e = K * V * (1 - Angle2 m a).
Proof. exact anis_val. Qed.
Theorem c61_anisotropy_null : forall m a K V, m = Zero \/ a = Zero ->
  calculateAnisotropyEnergy m a K V = Err NonFinite.
Proof. exact anis_refused. Qed.
Theorem c61_anisotropy_range : forall m a K V e, 0 <= K -> 0 <= V ->
  calculateAnisotropyEnergy m a K V = Ok e -> 0 <= e <= K * V.
Proof. exact anis_range. Qed.
Theorem c61_anisotropy : forall m d a K V Ms e e',
  Norm2 m = 1 -> Norm2 (Plus m d) = 1 -> Norm2 a = 1 -> Ms <> 0 ->
  calculateAnisotropyEnergy m a K V = Ok e -> calculateAnisotropyEnergy (Plus m d) a K V = Ok e' ->
  e' - e = - (Ms * V) * Dot d (H_anis a K Ms m) - K * V * Dot d a ^ 2.
Proof. exact anis_gradient. Qed.
Theorem c61_zeeman : forall m d H V Ms,
  calculateZeemanEnergy (Plus m d) H V Ms - calculateZeemanEnergy m H V Ms = - (mu0 * Ms * V) * Dot d H.
Proof. exact zeeman_gradient. Qed.
Theorem c61_zeeman_value : forall m H V Ms, calculateZeemanEnergy m H V Ms = - (mu0 * Ms * V) * Dot m H.
Proof. exact zeeman_val. Qed.
Theorem c61_demag : forall m d N Ms V, SymTensor N ->
  let Hd := fun x => Scal (-1) (H_tensor N Ms x) in
  calculateDemagEnergy (Plus m d) (Hd (Plus m d)) Ms V - calculateDemagEnergy m (Hd m) Ms V =
  - (mu0 * Ms * V) * Dot d (Hd m) + calculateDemagEnergy d (Hd d) Ms V.
Proof. exact demag_gradient. Qed.
Theorem c61_demag_half : forall m H V Ms, calculateDemagEnergy m H Ms V = calculateZeemanEnergy m H V Ms / 2.
Proof. exact demag_half. Qed.
(** The exchange and Zeeman energies cannot be added for a common moment: the same field gives
    energies that differ by mu0. *)
Theorem c61_common_unit_refuted : exists m d o J S t Ms,
  Ms <> 0 /\ t <> 0 /\
  calculateIECEnergy (Plus m d) o J S - calculateIECEnergy m o J S <>
  calculateZeemanEnergy (Plus m d) (H_iec J 0 (Ms * t) m o) (S * t) Ms -
  calculateZeemanEnergy m (H_iec J 0 (Ms * t) m o) (S * t) Ms.
Proof. exact energy_units. Qed.

Example c61_ex : Norm2 (CV 1 0 0) = 1 /\ Norm2 (Plus (CV 1 0 0) (CV (-1) 1 0)) = 1 /\
  calculateAnisotropyEnergy (CV 1 0 0) (CV 1 0 0) 3 2 = Ok 0 /\
  calculateAnisotropyEnergy (Plus (CV 1 0 0) (CV (-1) 1 0)) (CV 1 0 0) 3 2 = Ok 6.
Proof. exact energy_example. Qed.
Example c61_ex_demag : SymTensor (Ten (CV 1 2 3) (CV 2 4 5) (CV 3 5 6)).
Proof. repeat split. Qed.

(** ** C62 *)
Theorem c62_getLayer : forall j id l, getLayer j id = Ok l <-> first_with id j l.
Proof. exact getLayer_iff. Qed.
Theorem c62_getLayer_refused : forall j id, (exists msg, getLayer j id = Err (Throw msg)) <-> absent id j.
Proof. exact getLayer_absent. Qed.
Theorem c62_getMagnetisation : forall j id m, getLayerMagnetisation j id = Ok m <->
  exists l, first_with id j l /\ m = l_mag l.
Proof. exact getMag_iff. Qed.
Theorem c62_getReference : forall j id r, getLayerReferenceType j id = Ok r <->
  exists l, first_with id j l /\ r = l_refType l.
Proof. exact getRef_iff. Qed.
Theorem c62_getLayerIds : forall j p id, nth_error (getLayerIds j) p = Some id <->
  exists l, nth_error (j_layers j) p = Some l /\ l_id l = id.
Proof. exact getIds_nth. Qed.
(** Clearing empties every column and the row counter and keeps everything else. *)
Theorem c62_clear : forall j j' r, clearLog j = (j', r) ->
  r = Ok tt /\ j_logLength j' = 0%nat /\ (forall key, log_get key (j_log j') = None) /\
  j_layers j' = j_layers j /\ getMagnetoresistance j' = getMagnetoresistance j /\
  j = set_j_log (j_log j) (j_logLength j) j'.
Proof. exact clear_spec. Qed.
(** The written file is the log: one header entry per column, one line per row, in column order. *)
Theorem c62_saved : forall j f header rows, saveLogs j f = Ok (header, rows) <->
  f <> ""%string /\ saved (j_log j) (j_logLength j) header rows.
Proof. exact saveLogs_iff. Qed.
Theorem c62_saved_noname : forall j, exists msg, saveLogs j "" = Err (Throw msg).
Proof. intros j. eexists. reflexivity. Qed.
Theorem c62_own_settings : forall s l l', own_call s l = (l', Ok tt) <-> own_accepts s l /\ own_effect s l l'.
Proof. exact own_iff. Qed.
Theorem c62_own_settings_refused : forall s l, ~ own_accepts s l ->
  exists e, own_call s l = (l, Err e) /\ own_refusal s l e.
Proof. exact own_refuse. Qed.

Example c62_ex : exists j l0 l1, first_with "a" j l0 /\ first_with "b" j l1 /\ absent "c" j /\
  saved [("x", [1; 2]); ("y", [3; 4])]%string 2 ["x"; "y"]%string [[1; 3]; [2; 4]].
Proof. exact getter_example. Qed.
Example c62_ex_own : own_accepts (OAlphaNoise 1 2 3 xaxis) (ex_layer "a" (CV 1 0 0)) /\ ~ own_accepts (OAlphaNoise 3 2 3 xaxis) (ex_layer "a" (CV 1 0 0)).
Proof. cbn. lra. Qed.

Print Assumptions c59_layer.
Print Assumptions c59_layer_accepted.
Print Assumptions c59_layer_refused.
Print Assumptions c59_fresh_motion.
Print Assumptions c59_unit_magnetisation_refuted.
Print Assumptions c59_junction_plain.
Print Assumptions c59_no_layers_refused.
Print Assumptions c59_junction_classic_one.
Print Assumptions c59_junction_classic_one_refused.
Print Assumptions c59_junction_classic_two.
Print Assumptions c59_junction_classic_many_refused.
Print Assumptions c59_junction_strip.
Print Assumptions c61_exchange.
Print Assumptions c61_exchange_symmetric.
Print Assumptions c61_exchange_value.
Print Assumptions c61_anisotropy_value.
Print Assumptions c61_anisotropy_null.
Print Assumptions c61_anisotropy_range.
Print Assumptions c61_anisotropy.
Print Assumptions c61_zeeman.
Print Assumptions c61_zeeman_value.
Print Assumptions c61_demag.
Print Assumptions c61_demag_half.
Print Assumptions c61_common_unit_refuted.
Print Assumptions c62_getLayer.
Print Assumptions c62_getLayer_refused.
Print Assumptions c62_getMagnetisation.
Print Assumptions c62_getReference.
Print Assumptions c62_getLayerIds.
Print Assumptions c62_clear.
Print Assumptions c62_saved.
Print Assumptions c62_saved_noname.
Print Assumptions c62_own_settings.
Print Assumptions c62_own_settings_refused.
