(** More about the pulse procedure: order of fields, history, drivers. *)
From Verif Require Export P_VsdProps.
From Coq Require Import List Lra Lia.
Open Scope R_scope.

Lemma with_result {A} hs (a : pimm_args A) ls H N s row : pimm_result (with_fields hs a) ls H N s row <-> pimm_result a ls H N s row.
Proof. reflexivity. Qed.
Lemma with_fields_fields {A} rnd (a : pimm_args A) oe hs Hs st final rows : pimm_fields rnd (with_fields hs a) oe Hs st final rows <-> pimm_fields rnd a oe Hs st final rows.
Proof.
  split; intros F.
  - induction F as [j pos|H Hs j pos j1 j2 N s row rows final PF EX PR PC IH]; [constructor|]. econstructor; [exact PF|exact EX|exact PR|exact IH].
  - induction F as [j pos|H Hs j pos j1 j2 N s row rows final PF EX PR PC IH]; [constructor|]. econstructor; [exact PF|exact EX|exact PR|exact IH].
Qed.
Lemma collect_iff {A} rnd (a : pimm_args A) j pos st' o : named j -> ~ In "all"%string (ids j) ->
  PIMM_procedure rnd a (j, pos) = (st', Ok o) <->
  pa_wait a <= pa_simulation a /\ 0 < pa_int_step a * pa_duration a /\ length (pa_params a) = layerNo j /\
  exists rows, pimm_fields rnd a (along_axis (pa_direction a) (field_pulse (pa_excitation a) (pa_int_step a * pa_duration a))) (pa_Hvecs a) (j, pos) st' rows /\ o = pimm_collect a (ids j) rows.
Proof.
  intros NM NA. rewrite (pimm_iff rnd a j pos st' o NM NA). assert (LN : length (ids j) = layerNo j) by (unfold ids; apply map_length).
  split; intros (A1 & A2 & A3 & rows & F & O); (split; [exact A1|]; split; [exact A2|]; split; [exact A3|]; exists rows; split; [exact F|]);
  pose proof (fields_good _ _ _ _ (j, pos) _ _ NM F) as G; cbn [fst] in G; rewrite <- LN in G; pose proof (collect_output a (ids j) rows G) as C.
  - exact (output_unique _ _ _ _ _ O C).
  - rewrite O. exact C.
Qed.
Lemma fields_keep {A} rnd (a : pimm_args A) oe Hs st final rows : named (fst st) -> pimm_fields rnd a oe Hs st final rows -> named (fst final) /\ ids (fst final) = ids (fst st).
Proof.
  intros NM F. induction F as [j pos|H Hs j pos j1 j2 N s row rows final PF EX PR PC IH]; [split; [exact NM|reflexivity]|]. cbn [fst] in *.
  destruct (measured _ _ _ _ _ _ _ _ _ _ NM PF (proj1 EX)) as (_ & _ & _ & K & NM2 & _). destruct (IH NM2) as [A1 A2]. split; [exact A1|]. rewrite A2. apply kin_ids, K.
Qed.
Lemma flatten_app {X} (xs ys : list (option X)) : flatten_opt (xs ++ ys) = (flatten_opt xs ++ flatten_opt ys)%list.
Proof. unfold flatten_opt. apply flat_map_app. Qed.
Lemma collect_joined {A} (a : pimm_args A) h1 h2 ids r1 r2 : joined (pimm_collect (with_fields h1 a) ids r1) (pimm_collect (with_fields h2 a) ids r2) (pimm_collect a ids (r1 ++ r2)).
Proof.
  unfold joined, pimm_collect. cbn [po_H po_Rx po_Ry po_m_avg po_spectrum po_freqs po_m_traj]. rewrite !map_app, !flatten_app, !map_app. do 6 (split; [reflexivity|]).
  rewrite rev_app_distr. destruct (rev (flatten_opt (map (@pr_spectrum A) r2))); reflexivity.
Qed.
Lemma split_fields {A} rnd (a : pimm_args A) h1 h2 j pos st' o : named j -> ~ In "all"%string (ids j) -> pa_Hvecs a = (h1 ++ h2)%list ->
  PIMM_procedure rnd a (j, pos) = (st', Ok o) ->
  exists mid o1 o2, PIMM_procedure rnd (with_fields h1 a) (j, pos) = (mid, Ok o1) /\ PIMM_procedure rnd (with_fields h2 a) mid = (st', Ok o2) /\ joined o1 o2 o.
Proof.
  intros NM NA EH E. apply collect_iff in E; [|exact NM|exact NA]. destruct E as (A1 & A2 & A3 & rows & F & ->). rewrite EH in F. apply fields_app in F. destruct F as (mid & r1 & r2 & -> & F1 & F2).
  destruct (fields_keep _ _ _ _ (j, pos) _ _ NM F1) as [NM1 EI]. cbn [fst] in EI. destruct mid as [j1 pos1]. cbn [fst] in *.
  exists (j1, pos1), (pimm_collect (with_fields h1 a) (ids j) r1), (pimm_collect (with_fields h2 a) (ids j) r2). split; [|split; [|apply collect_joined]].
  - apply collect_iff; [exact NM|exact NA|]. repeat (split; [assumption|]). exists r1. split; [apply with_fields_fields, F1|reflexivity].
  - apply collect_iff; [exact NM1|rewrite EI; exact NA|]. split; [exact A1|]. split; [exact A2|]. split.
    + cbn [pa_params with_fields]. rewrite A3. assert (X : length (ids j1) = length (ids j)) by (rewrite EI; reflexivity). unfold ids in X. rewrite !map_length in X. symmetry. exact X.
    + exists r2. split; [apply with_fields_fields, F2|rewrite EI; reflexivity].
Qed.
Lemma join_fields {A} rnd (a : pimm_args A) h1 h2 j pos mid st' o1 o2 : named j -> ~ In "all"%string (ids j) -> pa_Hvecs a = (h1 ++ h2)%list ->
  PIMM_procedure rnd (with_fields h1 a) (j, pos) = (mid, Ok o1) -> PIMM_procedure rnd (with_fields h2 a) mid = (st', Ok o2) ->
  exists o, PIMM_procedure rnd a (j, pos) = (st', Ok o) /\ joined o1 o2 o.
Proof.
  intros NM NA EH E1 E2. apply collect_iff in E1; [|exact NM|exact NA]. destruct E1 as (A1 & A2 & A3 & r1 & F1 & ->). apply with_fields_fields in F1. cbn [with_fields pa_Hvecs] in F1.
  destruct (fields_keep _ _ _ _ (j, pos) _ _ NM F1) as [NM1 EI]. destruct mid as [j1 pos1]. cbn [fst] in *.
  apply collect_iff in E2; [|exact NM1|rewrite EI; exact NA]. destruct E2 as (_ & _ & _ & r2 & F2 & ->). apply with_fields_fields in F2. cbn [with_fields pa_Hvecs] in F2. rewrite EI.
  exists (pimm_collect a (ids j) (r1 ++ r2)). split; [|apply collect_joined]. apply collect_iff; [exact NM|exact NA|]. repeat (split; [assumption|]). exists (r1 ++ r2)%list. split; [|reflexivity].
  rewrite EH. apply fields_app. exists (j1, pos1), r1, r2. repeat split; assumption.
Qed.
Lemma same_ids j k : same_sample j k -> shape j k.
Proof.
  intros S. pose proof (kin_ids _ _ (weight_same S)) as [EI _]. destruct S as (ls & E & _). split; [exact EI|]. rewrite E. split; reflexivity.
Qed.
Lemma history {A} rnd (a : pimm_args A) j k pos st' o : named j -> ~ In "all"%string (ids j) -> same_sample j k -> pa_Hvecs a <> [] ->
  PIMM_procedure rnd a (j, pos) = (st', Ok o) -> PIMM_procedure rnd a (k, pos) = (st', Ok o).
Proof.
  intros NM NA S NE E. apply collect_iff in E; [|exact NM|exact NA]. destruct E as (A1 & A2 & A3 & rows & F & ->). pose proof (same_ids _ _ S) as SH.
  assert (EI : ids k = ids j) by apply SH. apply collect_iff; [exact (named_shape _ _ SH NM)|rewrite EI; exact NA|]. split; [exact A1|]. split; [exact A2|]. split.
  - rewrite A3. symmetry. exact (proj2 (kin_ids _ _ (weight_same S))).
  - exists rows. rewrite EI. split; [|reflexivity]. destruct (pa_Hvecs a) as [|H Hs]; [congruence|]. exact (fields_same S F).
Qed.

(** ** The drivers over time *)
Lemma steady_value H t : getCurrentAxialDrivers (steady H) t = Ok H.
Proof. destruct H. reflexivity. Qed.
Lemma pulse_value a amp stop t : getCurrentAxialDrivers (along_axis a (field_pulse amp stop)) t =
  Ok (on_axis a (if Rle_dec 0 t then if Rle_dec t stop then amp else 0 else 0)).
Proof.
  assert (X : forall u, 0 + stepUpdate amp t 0 u = if Rle_dec 0 t then if Rle_dec t u then amp else 0 else 0).
  { intros u. unfold stepUpdate. destruct (Rle_dec 0 t); [|ring]. destruct (Rle_dec t u); ring. }
  destruct a; cbn -[stepUpdate]; rewrite X; reflexivity.
Qed.
Lemma sine_value a amp f t : getCurrentAxialDrivers (along_axis a (field_sine amp f)) t = Ok (on_axis a (amp * sin (2 * PI * f * t))).
Proof.
  assert (X : 0 + amp * sin (2 * PI * t * f + 0) = amp * sin (2 * PI * f * t)) by (rewrite Rplus_0_l, Rplus_0_r; f_equal; f_equal; ring).
  destruct a; cbn -[sin PI]; rewrite X; reflexivity.
Qed.
