(** Constructors, getters, energies and the saved table. *)
From Verif Require Export S_Ctor P_RunEx.
Open Scope R_scope.
Open Scope st_scope.

Lemma zero_length v : vlength v = 0 <-> v = Zero.
Proof. rewrite vlength_Norm. apply Norm_zero_iff. Qed.
Lemma null_dipole l b top : l_dipoleBottom l = null_tensor -> l_dipoleTop l = null_tensor -> dipole_total l b top = Zero.
Proof.
  intros H1 H2. unfold dipole_total. rewrite H1, H2. unfold H_tensor, null_tensor, MatVec. destruct b, top. vsimp. apply vec_eq; ring.
Qed.
Lemma mkLayer_iff rng nsrc id mag anis Ms th S N a fl dl sl be po :
  mag <> Zero -> anis <> Zero -> exists l, mkLayer rng nsrc id mag anis Ms th S N a fl dl sl be po = Ok l /\
    fresh rng nsrc l /\ material l id mag anis Ms th S N a /\ torque_setup l false false true fl dl sl be po.
Proof.
  intros H1 H2. unfold mkLayer.
  destruct (Req_EM_T (vlength mag) 0) as [E|_]; [apply zero_length in E; contradiction|].
  destruct (Req_EM_T (vlength anis) 0) as [E|_]; [apply zero_length in E; contradiction|].
  eexists. split; [reflexivity|]. split; [|split; repeat split].
  split; [intros t; repeat split|]. split; [split; repeat constructor|].
  split; [intros b top; apply null_dipole; reflexivity|]. repeat split.
Qed.
Lemma construct_ok k rng nsrc id mag anis Ms th S N a :
  mag <> Zero -> anis <> Zero -> exists l, construct k rng nsrc id mag anis Ms th S N a = Ok l /\
    fresh rng nsrc l /\ material l id mag anis Ms th S N a /\ kind_setup k l.
Proof.
  intros H1 H2. destruct k as [|fl dl|sl be po]; cbn [construct kind_setup].
  - apply mkLayer_iff; assumption.
  - unfold LayerSOT. destruct (mkLayer_iff rng nsrc id mag anis Ms th S N a fl dl 0 0 0 H1 H2) as (l & -> & F & M & T).
    eexists. split; [reflexivity|]. split; [exact F|]. split; [exact M|]. destruct T as (_ & _ & _ & T). repeat (split; [reflexivity|]). exact T.
  - unfold LayerSTT. destruct (mkLayer_iff rng nsrc id mag anis Ms th S N a 0 0 sl be po H1 H2) as (l & -> & F & M & T).
    eexists. split; [reflexivity|]. split; [exact F|]. split; [exact M|]. destruct T as (_ & _ & T & T'). split; [reflexivity|]. split; [reflexivity|]. split; [exact T|exact T'].
Qed.
Lemma construct_refused k rng nsrc id mag anis Ms th S N a : mag = Zero \/ anis = Zero ->
  exists msg, construct k rng nsrc id mag anis Ms th S N a = Err (Throw msg).
Proof.
  intros H. assert (X : forall fl dl sl be po, exists msg, mkLayer rng nsrc id mag anis Ms th S N a fl dl sl be po = Err (Throw msg)).
  { intros. unfold mkLayer. destruct (Req_EM_T (vlength mag) 0) as [_|E]; [eexists; reflexivity|].
    destruct (Req_EM_T (vlength anis) 0) as [_|E']; [eexists; reflexivity|]. exfalso. rewrite zero_length in E, E'. tauto. }
  destruct k as [|fl dl|sl be po]; cbn [construct].
  - apply X.
  - unfold LayerSOT. destruct (X fl dl 0 0 0) as [msg ->]. exists msg. reflexivity.
  - unfold LayerSTT. destruct (X 0 0 sl be po) as [msg ->]. exists msg. reflexivity.
Qed.
Lemma vec_dec (a b : cvec) : {a = b} + {a <> b}.
Proof.
  destruct a as [a0 a1 a2], b as [b0 b1 b2]. destruct (Req_EM_T a0 b0), (Req_EM_T a1 b1), (Req_EM_T a2 b2); subst; (left; reflexivity) || (right; congruence).
Qed.
Lemma construct_sound k rng nsrc id mag anis Ms th S N a l : construct k rng nsrc id mag anis Ms th S N a = Ok l ->
  mag <> Zero /\ anis <> Zero /\ fresh rng nsrc l /\ material l id mag anis Ms th S N a /\ kind_setup k l.
Proof.
  intros E. assert (D : {mag = Zero} + {mag <> Zero}) by apply vec_dec. assert (D' : {anis = Zero} + {anis <> Zero}) by apply vec_dec.
  destruct D as [D|D]; [destruct (construct_refused k rng nsrc id mag anis Ms th S N a (or_introl D)) as [m X]; congruence|].
  destruct D' as [D'|D']; [destruct (construct_refused k rng nsrc id mag anis Ms th S N a (or_intror D')) as [m X]; congruence|].
  split; [exact D|]. split; [exact D'|]. destruct (construct_ok k rng nsrc id mag anis Ms th S N a D D') as (l' & E' & H).
  assert (l' = l) by congruence. subst. exact H.
Qed.
(** A fresh layer moves under its demagnetising field only. *)
Lemma fresh_rhs k rng nsrc id mag anis Ms th S N a l t m d : construct k rng nsrc id mag anis Ms th S N a = Ok l ->
  k = KPlain -> Ms <> 0 -> th <> 0 ->
  (rhs l t m Zero Zero d <-> d = LLG_plain a m (Scal (-1) (H_tensor N Ms m))).
Proof.
  intros E -> HM HT. destruct (construct_sound _ _ _ _ _ _ _ _ _ _ _ _ E) as (_ & _ & (HU & _ & HD & _) & (_ & _ & _ & HMs & Hth & _ & _ & HN & Ha) & (Hst & Hso & _)).
  destruct (HU t) as [Hi _]. unfold rhs. rewrite HMs, Hth.
  assert (EH : forall i, inputs_at l t i -> H_eff l i m Zero Zero (dipole_total l Zero Zero) Zero = Scal (-1) (H_tensor N Ms m)).
  { intros i Hi'. rewrite (inputs_unique _ _ _ _ Hi' Hi). rewrite HD. unfold H_eff, IEC_total, IDMI_total, H_anis, H_iec, H_idmi.
    cbn [fi_ext fi_oe fi_dmi fi_res fi_K fi_Jb fi_Jt fi_J2b fi_J2t fi_Db fi_Dt]. rewrite HN, HMs.
    unfold Sum, fold_right. destruct (H_tensor N Ms m) as [x y z]. destruct (l_anis l), m. vsimp. unfold Rdiv. apply vec_eq; ring. }
  split.
  - intros (i & Hi' & _ & _ & Hs). rewrite (EH i Hi') in Hs. inversion Hs as [Hx Hy Hz|I Hx HI H1 H2 H3 Hz|? ? Hx Hy|? ? Hx Hy]; [rewrite Ha; reflexivity|..]; exfalso; congruence.
  - intros ->. eexists. split; [exact Hi|]. split; [exact HM|]. split; [exact HT|]. rewrite (EH _ Hi). rewrite <- Ha. apply llg_plain; assumption.
Qed.

(** ** Junction constructors *)
Lemma plain_junction_ok ls : ls <> [] -> exists j, Junction_plain ls = Ok j /\ empty_junction ls MR_NONE j /\ no_strip j /\
  j_Rp j = 0 /\ j_Rap j = 0 /\ j_Rtag j = "R"%string.
Proof. intros H. destruct ls; [contradiction|]. eexists. split; [reflexivity|]. repeat split. Qed.
Lemma empty_refused : exists m1 m2 m3, Junction_plain [] = Err (Throw m1) /\ (forall Rp Rap, Junction_classic [] Rp Rap = Err (Throw m2)) /\
  (forall a b c d e f g, Junction_strip [] a b c d e f g = Err (Throw m3)).
Proof. do 3 eexists. split; [reflexivity|]. split; reflexivity. Qed.
Lemma classic_one l Rp Rap : l_reference l <> Zero -> exists j, Junction_classic [l] Rp Rap = Ok j /\ empty_junction [l] MR_CLASSIC j /\ no_strip j /\
  j_Rp j = Rp /\ j_Rap j = Rap /\ j_Rtag j = "R"%string.
Proof.
  intros H. unfold Junction_classic. destruct (Req_EM_T (vlength (l_reference l)) 0) as [E|_]; [apply zero_length in E; contradiction|].
  eexists. split; [reflexivity|]. repeat split.
Qed.
Lemma classic_one_refused l Rp Rap : l_reference l = Zero -> exists msg, Junction_classic [l] Rp Rap = Err (Throw msg).
Proof.
  intros H. unfold Junction_classic. destruct (Req_EM_T (vlength (l_reference l)) 0) as [E|E]; [eexists; reflexivity|].
  apply zero_length in H. contradiction.
Qed.
Lemma classic_two_ok l0 l1 Rp Rap : exists j, Junction_classic [l0; l1] Rp Rap = Ok j /\ empty_junction [l0; l1] MR_CLASSIC j /\ no_strip j /\
  j_Rp j = Rp /\ j_Rap j = Rap /\ j_Rtag j = ("R_" ++ l_id l0 ++ "_" ++ l_id l1)%string.
Proof. eexists. split; [reflexivity|]. repeat split. Qed.
Lemma classic_many_refused ls Rp Rap : (2 < length ls)%nat -> exists msg, Junction_classic ls Rp Rap = Err (Throw msg).
Proof. intros H. destruct ls as [|a [|b [|c ls]]]; cbn in H; try lia. eexists. reflexivity. Qed.
Lemma strip_iff ls Rx0 Ry0 AX AY SX SY AHE :
  (ls <> [] /\ length Rx0 = length ls /\ length Ry0 = length ls /\ length AX = length ls /\ length AY = length ls /\
   length SX = length ls /\ length SY = length ls /\ length AHE = length ls ->
   exists j, Junction_strip ls Rx0 Ry0 AX AY SX SY AHE = Ok j /\ empty_junction ls MR_STRIP j /\ j_Rp j = 0 /\ j_Rap j = 0 /\
     j_Rx0 j = Rx0 /\ j_Ry0 j = Ry0 /\ j_AMR_X j = AX /\ j_AMR_Y j = AY /\ j_SMR_X j = SX /\ j_SMR_Y j = SY /\ j_AHE j = AHE /\ j_Rtag j = "R"%string) /\
  (~ (ls <> [] /\ length Rx0 = length ls /\ length Ry0 = length ls /\ length AX = length ls /\ length AY = length ls /\
   length SX = length ls /\ length SY = length ls /\ length AHE = length ls) ->
   exists msg, Junction_strip ls Rx0 Ry0 AX AY SX SY AHE = Err (Throw msg)).
Proof.
  unfold Junction_strip. destruct (Nat.eqb_spec (length ls) 0) as [E0|E0].
  { destruct ls; [|discriminate]. split; [intros [H _]; contradiction|intros _; eexists; reflexivity]. }
  assert (E0' : ls <> []) by (intros ->; apply E0; reflexivity).
  destruct (Nat.eqb_spec (length ls) (length Rx0)), (Nat.eqb_spec (length ls) (length Ry0)), (Nat.eqb_spec (length ls) (length AX)),
    (Nat.eqb_spec (length ls) (length AY)), (Nat.eqb_spec (length ls) (length AHE)), (Nat.eqb_spec (length ls) (length SX)),
    (Nat.eqb_spec (length ls) (length SY)); cbn [negb orb];
    (split; [intros H | intros H; try (eexists; reflexivity)]).
  all: try (exfalso; destruct H as (_ & ? & ? & ? & ? & ? & ? & ?); congruence).
  - eexists. split; [reflexivity|]. repeat split.
  - exfalso. apply H. repeat split; congruence.
Qed.

(** ** Getters *)
Lemma find_layer_iff id ls l : find_layer id ls = Some l <->
  exists p, nth_error ls p = Some l /\ l_id l = id /\ forall q k, (q < p)%nat -> nth_error ls q = Some k -> l_id k <> id.
Proof.
  induction ls as [|x ls IH]; cbn [find_layer].
  - split; [discriminate|]. intros ([|p] & H & _); discriminate.
  - destruct (String.eqb_spec (l_id x) id) as [E|E].
    + split.
      * intros H. injection H as <-. exists 0%nat. split; [reflexivity|]. split; [exact E|]. intros q k Hq. lia.
      * intros ([|p] & H & Hid & Hq); [cbn in H; exact H|]. exfalso. apply (Hq 0%nat x); [lia|reflexivity|exact E].
    + rewrite IH. split.
      * intros (p & H & Hid & Hq). exists (S p). split; [exact H|]. split; [exact Hid|]. intros [|q] k Hlt Hk; [injection Hk as <-; exact E|]. apply (Hq q k); [lia|exact Hk].
      * intros ([|p] & H & Hid & Hq); [cbn in H; congruence|]. exists p. split; [exact H|]. split; [exact Hid|]. intros q k Hlt Hk. apply (Hq (S q) k); [lia|exact Hk].
Qed.
Lemma find_none id ls : find_layer id ls = None <-> forall l, In l ls -> l_id l <> id.
Proof.
  induction ls as [|x ls IH]; cbn [find_layer]; [split; [intros _ l []|reflexivity]|].
  destruct (String.eqb_spec (l_id x) id) as [E|E].
  - split; [discriminate|]. intros H. exfalso. apply (H x (or_introl eq_refl) E).
  - rewrite IH. split; [intros H l [<-|Hl]; [exact E|exact (H l Hl)]|intros H l Hl; apply H; right; exact Hl].
Qed.
Lemma getLayer_iff j id l : getLayer j id = Ok l <-> first_with id j l.
Proof.
  unfold getLayer, first_with. rewrite <- find_layer_iff. destruct (find_layer id (j_layers j)); split; congruence.
Qed.
Lemma getLayer_absent j id : (exists msg, getLayer j id = Err (Throw msg)) <-> absent id j.
Proof.
  unfold getLayer, absent. rewrite <- find_none. destruct (find_layer id (j_layers j)); split; try congruence.
  - intros [m H]. discriminate.
  - intros _. eexists. reflexivity.
Qed.
Lemma getLayer_total j id : (exists l, first_with id j l) \/ absent id j.
Proof.
  unfold first_with, absent. destruct (find_layer id (j_layers j)) as [l|] eqn:E; [left; exists l; apply find_layer_iff, E|right; apply find_none, E].
Qed.
Lemma getMag_iff j id m : getLayerMagnetisation j id = Ok m <-> exists l, first_with id j l /\ m = l_mag l.
Proof.
  unfold getLayerMagnetisation. destruct (getLayer j id) as [l|e] eqn:E; cbn [rbind].
  - apply getLayer_iff in E. split.
    + intros H. injection H as <-. eauto.
    + intros (l' & H & ->). apply getLayer_iff in H, E. congruence.
  - split; [discriminate|]. intros (l & H & _). apply getLayer_iff in H. congruence.
Qed.
Lemma getRef_iff j id r : getLayerReferenceType j id = Ok r <-> exists l, first_with id j l /\ r = l_refType l.
Proof.
  unfold getLayerReferenceType. destruct (getLayer j id) as [l|e] eqn:E; cbn [rbind].
  - apply getLayer_iff in E. split.
    + intros H. injection H as <-. eauto.
    + intros (l' & H & ->). apply getLayer_iff in H, E. congruence.
  - split; [discriminate|]. intros (l & H & _). apply getLayer_iff in H. congruence.
Qed.
Lemma getIds_nth j p id : nth_error (getLayerIds j) p = Some id <-> exists l, nth_error (j_layers j) p = Some l /\ l_id l = id.
Proof.
  unfold getLayerIds. rewrite nth_error_map. destruct (nth_error (j_layers j) p); cbn; split.
  - intros H. injection H as <-. eauto. - intros (l0 & H & <-). congruence. - discriminate. - intros (l0 & H & _). discriminate.
Qed.
Lemma clear_spec j j' r : clearLog j = (j', r) ->
  r = Ok tt /\ j_logLength j' = 0%nat /\ (forall key, log_get key (j_log j') = None) /\ j_layers j' = j_layers j /\
  getMagnetoresistance j' = getMagnetoresistance j /\ j = set_j_log (j_log j) (j_logLength j) j'.
Proof.
  unfold clearLog, modify. intros H. injection H as <- <-. split; [reflexivity|]. split; [reflexivity|]. split; [reflexivity|].
  split; [reflexivity|]. split; [|destruct j; reflexivity]. unfold getMagnetoresistance, stripMagnetoResistance, calculateMagnetoresistance. destruct j; reflexivity.
Qed.

(** ** Saved table *)
Lemma save_row_iff i g row : save_row i g = Ok row <-> length row = length g /\
  forall c k col, nth_error g c = Some (k, col) -> nth_error row c = nth_error col i /\ nth_error col i <> None.
Proof.
  revert row. induction g as [|[k col] g IH]; intros row; cbn [save_row length].
  - split.
    + intros H. injection H as <-. split; [reflexivity|]. intros [|c] k' col' H; discriminate.
    + intros [H _]. destruct row; [reflexivity|discriminate].
  - destruct (nth_error col i) as [v|] eqn:Ev.
    + destruct (save_row i g) as [r|e] eqn:Er; cbn [rbind].
      * split.
        -- intros H. injection H as <-. destruct (proj1 (IH r) eq_refl) as [L P]. split; [cbn; congruence|].
           intros [|c] k' col' Hc; [cbn in Hc; injection Hc as <- <-; cbn; rewrite Ev; split; congruence|]. exact (P c k' col' Hc).
        -- intros [L P]. destruct row as [|x row]; [discriminate|]. f_equal.
           destruct (P 0%nat k col eq_refl) as [P0 _]. cbn in P0. rewrite Ev in P0. injection P0 as ->. f_equal.
           assert (X : Ok r = Ok row) by (apply IH; split; [cbn in L; congruence|]; intros c; exact (P (S c))). congruence.
      * split; [discriminate|]. intros [L P]. destruct row as [|x row]; [discriminate|].
        assert (X : Err e = Ok row) by (apply IH; split; [cbn in L; congruence|]; intros c; exact (P (S c))). discriminate.
    + split; [discriminate|]. intros [_ P]. destruct (P 0%nat k col eq_refl) as [_ X]. congruence.
Qed.
Lemma save_rows_iff n : forall i g rows, save_rows n i g = Ok rows <-> length rows = n /\
  forall a row, nth_error rows a = Some row -> save_row (i + a) g = Ok row.
Proof.
  induction n as [|n IH]; intros i g rows; cbn [save_rows].
  - split.
    + intros H. injection H as <-. split; [reflexivity|]. intros [|a] row H; discriminate.
    + intros [H _]. destruct rows; [reflexivity|discriminate].
  - destruct (save_row i g) as [r|e] eqn:Er; cbn [rbind].
    + destruct (save_rows n (S i) g) as [rs|e] eqn:Es; cbn [rbind].
      * apply IH in Es. destruct Es as [L P]. split.
        -- intros H. injection H as <-. split; [cbn; congruence|]. intros [|a] row Ha; [cbn in Ha; injection Ha as <-; rewrite Nat.add_0_r; exact Er|].
           rewrite <- Nat.add_succ_comm. exact (P a row Ha).
        -- intros [L' P']. destruct rows as [|x rows]; [discriminate|]. f_equal.
           assert (X := P' 0%nat x eq_refl). rewrite Nat.add_0_r, Er in X. injection X as ->. f_equal.
           apply nth_error_ext_len; [cbn in L'; congruence|]. intros a y z Hy Hz. assert (Y := P a y Hy). assert (Z := P' (S a) z Hz).
           rewrite <- Nat.add_succ_comm in Z. congruence.
      * split; [discriminate|]. intros [L' P']. destruct rows as [|x rows]; [discriminate|].
        assert (X : save_rows n (S i) g = Ok rows).
        { apply IH. split; [cbn in L'; congruence|]. intros a row Ha. rewrite Nat.add_succ_comm. exact (P' (S a) row Ha). }
        congruence.
    + split; [discriminate|]. intros [L' P']. destruct rows as [|x rows]; [discriminate|].
      assert (X := P' 0%nat x eq_refl). rewrite Nat.add_0_r, Er in X. discriminate.
Qed.
Lemma saveLogs_iff j f header rows : saveLogs j f = Ok (header, rows) <-> f <> ""%string /\ saved (j_log j) (j_logLength j) header rows.
Proof.
  unfold saveLogs, saved. destruct (String.eqb_spec f ""%string) as [E|E]; [split; [discriminate|intros [H _]; contradiction]|].
  destruct (save_rows (j_logLength j) 0 (j_log j)) as [rs|e] eqn:Es; cbn [rbind].
  - apply save_rows_iff in Es. destruct Es as [L P]. split.
    + intros H. injection H as <- <-. split; [exact E|]. split; [apply map_length|]. split; [exact L|]. split.
      * intros c k col Hc. rewrite nth_error_map, Hc. reflexivity.
      * intros i row Hi. apply save_row_iff. exact (P i row Hi).
    + intros (_ & L1 & L2 & H1 & H2). f_equal. f_equal.
      * apply nth_error_ext_len; [rewrite map_length; exact L1|]. intros c x y Hx Hy. rewrite nth_error_map in Hx.
        destruct (nth_error (j_log j) c) as [[k col]|] eqn:Ec; [|discriminate]. injection Hx as <-. rewrite (H1 c k col Ec) in Hy. congruence.
      * apply nth_error_ext_len; [congruence|]. intros i x y Hx Hy. assert (A := P i x Hx). assert (B := proj2 (save_row_iff i _ y) (H2 i y Hy)). cbn in A. congruence.
  - split; [discriminate|]. intros (_ & L1 & L2 & H1 & H2).
    assert (X : save_rows (j_logLength j) 0 (j_log j) = Ok rows).
    { apply save_rows_iff. split; [exact L2|]. intros i row Hi. apply save_row_iff. exact (H2 i row Hi). }
    congruence.
Qed.

(** ** Settings reachable only through the layer *)
Lemma own_det s l a b : own_effect s l a -> own_effect s l b -> a = b.
Proof.
  intros Ha Hb. apply layer_ext. intros f.
  destruct s; cbn [own_effect] in Ha, Hb;
  repeat match goal with H : _ /\ _ |- _ => destruct H end;
  match goal with A : same_except _ l a, B : same_except _ l b |- _ =>
    specialize (A f); specialize (B f); destruct f; cbn [same_field] in A, B |- *; first [congruence | rewrite A by not_in; rewrite B by not_in; reflexivity] end.
Qed.
Lemma own_total s l : own_accepts s l -> exists l', own_call s l = (l', Ok tt) /\ own_effect s l l'.
Proof.
  destruct s; cbn [own_call own_accepts own_effect].
  1-3: intros _; eexists; (split; [reflexivity|]); (split; [reflexivity|frame]).
  - intros [H1 H2]. unfold setAlphaNoise, bind, modify, fail. destruct (Rlt_dec alpha 0); [lra|]. destruct (Rlt_dec 2 alpha); [lra|].
    eexists. split; [reflexivity|]. repeat (split; [reflexivity|]). frame.
  - intros (H1 & H2 & H3). unfold createBufferedAlphaNoise, bind, modify, fail, get. destruct (Rlt_dec (l_nAlpha l) 0); [lra|].
    destruct (Nat.eqb_spec size 0); [contradiction|].
    destruct (l_nAxis l) eqn:EA; try contradiction; (eexists; split; [reflexivity|]); repeat (split; [reflexivity|]); frame.
Qed.
Lemma own_refuse s l : ~ own_accepts s l -> exists e, own_call s l = (l, Err e) /\ own_refusal s l e.
Proof.
  unfold own_refusal. destruct s; cbn [own_call own_accepts]; try (intros H; exfalso; apply H; exact I).
  - intros H. unfold setAlphaNoise, bind, modify, fail. destruct (Rlt_dec alpha 0); [eauto 6|]. destruct (Rlt_dec 2 alpha); [eauto 6|].
    exfalso. apply H. lra.
  - intros H. unfold createBufferedAlphaNoise, bind, modify, fail, get. destruct (Rlt_dec (l_nAlpha l) 0); [eauto 6|].
    destruct (l_nAxis l) eqn:EA; try (eexists; split; [reflexivity|]; left; eexists; reflexivity);
    (destruct (Nat.eqb_spec size 0) as [->|E]; [eexists; split; [reflexivity|]; right; repeat split; try lra; discriminate|]);
    exfalso; apply H; repeat split; try lra; try discriminate; exact E.
Qed.
Lemma own_dec s l : own_accepts s l \/ ~ own_accepts s l.
Proof. apply Classical_Prop.classic. Qed.
Lemma own_iff s l l' : own_call s l = (l', Ok tt) <-> own_accepts s l /\ own_effect s l l'.
Proof.
  split.
  - intros E. destruct (own_dec s l) as [H|H].
    + destruct (own_total s l H) as (l1 & E1 & F). split; [exact H|]. assert (X : l1 = l') by congruence. subst l1. exact F.
    + destruct (own_refuse s l H) as (e & E1 & _). congruence.
  - intros [H F]. destruct (own_total s l H) as (l1 & E1 & F1). rewrite (own_det s l l' l1 F F1). exact E1.
Qed.

(** ** Energies *)
Lemma mu_eq : MAGNETIC_PERMEABILITY = mu0.
Proof. unfold MAGNETIC_PERMEABILITY, mu0. f_equal. lra. Qed.
Lemma zeeman_val m H V Ms : calculateZeemanEnergy m H V Ms = - (mu0 * Ms * V) * Dot m H.
Proof. unfold calculateZeemanEnergy. rewrite c_dot_Dot, mu_eq. ring. Qed.
Lemma iec_val m o J S : calculateIECEnergy m o J S = - (J * S) * Dot m o.
Proof. unfold calculateIECEnergy. rewrite c_dot_Dot. ring. Qed.
Lemma demag_val m H V Ms : calculateDemagEnergy m H Ms V = - (mu0 * Ms * V / 2) * Dot m H.
Proof. unfold calculateDemagEnergy. rewrite c_dot_Dot, mu_eq. field. Qed.
Lemma zeeman_gradient m d H V Ms : calculateZeemanEnergy (Plus m d) H V Ms - calculateZeemanEnergy m H V Ms = - (mu0 * Ms * V) * Dot d H.
Proof. rewrite !zeeman_val. destruct m, d, H. vsimp. ring. Qed.
Lemma iec_gradient m d o J S t Ms : Ms <> 0 -> t <> 0 ->
  calculateIECEnergy (Plus m d) o J S - calculateIECEnergy m o J S = - (Ms * (S * t)) * Dot d (H_iec J 0 (Ms * t) m o).
Proof. intros HM HT. rewrite !iec_val. unfold H_iec. destruct m, d, o. vsimp. field. split; assumption. Qed.
Lemma iec_symmetric m o J S : calculateIECEnergy m o J S = calculateIECEnergy o m J S.
Proof. rewrite !iec_val. destruct m, o. vsimp. ring. Qed.
Lemma anis_val m a K V e : calculateAnisotropyEnergy m a K V = Ok e <-> m <> Zero /\ a <> Zero /\ e = K * V * (1 - Angle2 m a).
Proof.
  unfold calculateAnisotropyEnergy, Angle2. rewrite c_dot_Dot, !vlength_Norm. split.
  - intros E. destruct (fdiv (Dot m a) (Norm a * Norm m)) as [q|e'] eqn:Eq; [|discriminate]. apply fdiv_inv in Eq. destruct Eq as [Hn ->].
    cbn [rbind] in E. apply (f_equal (fun r => match r with Ok x => x | _ => 0 end)) in E. cbn beta iota in E.
    split; [intros X; apply Norm_zero_iff in X; apply Hn; rewrite X; ring|]. split; [intros X; apply Norm_zero_iff in X; apply Hn; rewrite X; ring|].
    rewrite <- E, (Rmult_comm (Norm a)). ring.
  - intros (Hm & Ha & ->). rewrite fdiv_ok.
    + cbn [rbind]. f_equal. rewrite (Rmult_comm (Norm a)). ring.
    + intros X. apply Rmult_integral in X. destruct X as [X|X]; [apply Ha, Norm_zero_iff, X|apply Hm, Norm_zero_iff, X].
Qed.
Lemma anis_refused m a K V : m = Zero \/ a = Zero -> calculateAnisotropyEnergy m a K V = Err NonFinite.
Proof.
  intros H. unfold calculateAnisotropyEnergy. rewrite !vlength_Norm. replace (Norm a * Norm m) with 0.
  - unfold fdiv. destruct (Req_EM_T 0 0); [reflexivity|contradiction].
  - symmetry. destruct H as [H|H]; apply Norm_zero_iff in H; rewrite H; ring.
Qed.
Lemma Norm_unit m : Norm2 m = 1 -> Norm m = 1.
Proof. intros H. unfold Norm. rewrite H. apply sqrt_1. Qed.
Lemma unit_nonzero m : Norm2 m = 1 -> m <> Zero.
Proof. intros H ->. vsimp. lra. Qed.
Lemma anis_gradient m d a K V Ms e e' : Norm2 m = 1 -> Norm2 (Plus m d) = 1 -> Norm2 a = 1 -> Ms <> 0 ->
  calculateAnisotropyEnergy m a K V = Ok e -> calculateAnisotropyEnergy (Plus m d) a K V = Ok e' ->
  e' - e = - (Ms * V) * Dot d (H_anis a K Ms m) - K * V * Dot d a ^ 2.
Proof.
  intros Hm Hd Ha HM E E'. apply anis_val in E, E'. destruct E as (_ & _ & ->), E' as (_ & _ & ->).
  unfold Angle2, H_anis. rewrite (Norm_unit _ Hm), (Norm_unit _ Hd), (Norm_unit _ Ha). clear Hm Hd Ha. destruct m, d, a. vsimp. field. exact HM.
Qed.
Lemma anis_range m a K V e : 0 <= K -> 0 <= V -> calculateAnisotropyEnergy m a K V = Ok e -> 0 <= e <= K * V.
Proof.
  intros HK HV E. apply anis_val in E. destruct E as (Hm & Ha & ->). unfold Angle2.
  assert (Nm : Norm m <> 0) by (intros X; apply Hm, Norm_zero_iff, X). assert (Na : Norm a <> 0) by (intros X; apply Ha, Norm_zero_iff, X).
  assert (0 <= K * V) by (apply Rmult_le_pos; assumption).
  assert (B : 0 <= (Dot m a / (Norm m * Norm a)) ^ 2 <= 1).
  { split; [apply pow2_ge_0|]. replace ((Dot m a / (Norm m * Norm a)) ^ 2) with (Dot m a ^ 2 / (Norm m ^ 2 * Norm a ^ 2)) by (field; split; assumption).
    assert (P : 0 < Norm m ^ 2 * Norm a ^ 2).
    { apply Rmult_lt_0_compat; [rewrite <- Rsqr_pow2|rewrite <- Rsqr_pow2]; apply Rsqr_pos_lt; assumption. }
    apply Rmult_le_reg_r with (1 := P). unfold Rdiv. rewrite Rmult_assoc, Rinv_l by lra. rewrite Rmult_1_r, Rmult_1_l.
    unfold Norm. rewrite !pow2_sqrt.
    - clear. destruct m as [a1 a2 a3], a as [b1 b2 b3]. vsimp. assert (0 <= (a1*b2-a2*b1)^2) by apply pow2_ge_0. assert (0 <= (a1*b3-a3*b1)^2) by apply pow2_ge_0. assert (0 <= (a2*b3-a3*b2)^2) by apply pow2_ge_0. nra.
    - clear. destruct a as [b1 b2 b3]. vsimp. nra.
    - clear. destruct m as [b1 b2 b3]. vsimp. nra. }
  nra.
Qed.
Lemma demag_half m H V Ms : calculateDemagEnergy m H Ms V = calculateZeemanEnergy m H V Ms / 2.
Proof. rewrite demag_val, zeeman_val. field. Qed.
Lemma demag_gradient m d N Ms V : SymTensor N ->
  let Hd := fun x => Scal (-1) (H_tensor N Ms x) in
  calculateDemagEnergy (Plus m d) (Hd (Plus m d)) Ms V - calculateDemagEnergy m (Hd m) Ms V =
  - (mu0 * Ms * V) * Dot d (Hd m) + calculateDemagEnergy d (Hd d) Ms V.
Proof.
  intros (H1 & H2 & H3) Hd. subst Hd. cbv beta. rewrite !demag_val. unfold H_tensor, MatVec. generalize mu0 (Ms / mu0). intros mu k.
  destruct N as [[a b c] [a' b' c'] [a'' b'' c'']], m, d. vsimp. subst. field.
Qed.

(** ** Witnesses *)
Lemma ctor_not_normalised : exists rng nsrc id mag anis Ms th S N a l,
  construct KPlain rng nsrc id mag anis Ms th S N a = Ok l /\ Norm2 (l_mag l) <> 1.
Proof.
  exists (fun _ => 0), (fun _ _ => vnull), "a"%string, (CV 0 0 2), (CV 0 0 1), 1, 1, 1, null_tensor, (1 / 2), (ex_layer "a" (CV 0 0 2)).
  split; [apply ex_layer_constructed; intros H; injection H; intros; lra|]. cbn. vsimp. lra.
Qed.
Lemma ctor_example : exists l0 l1 j, l_reference l0 <> Zero /\ Junction_plain [l0; l1] = Ok j /\
  length (j_layers j) = 2%nat /\ l_id l0 <> l_id l1.
Proof.
  exists (set_l_reference (CV 0 0 1) (ex_layer "a" (CV 0 0 2))), (ex_layer "b" (CV 0 0 2)). eexists.
  split; [cbn; intros H; injection H; intros; lra|]. split; [reflexivity|]. split; [reflexivity|discriminate].
Qed.
Lemma energy_units : exists m d o J S t Ms, Ms <> 0 /\ t <> 0 /\
  calculateIECEnergy (Plus m d) o J S - calculateIECEnergy m o J S <>
  calculateZeemanEnergy (Plus m d) (H_iec J 0 (Ms * t) m o) (S * t) Ms -
  calculateZeemanEnergy m (H_iec J 0 (Ms * t) m o) (S * t) Ms.
Proof.
  exists (CV 1 0 0), (CV 1 0 0), (CV 1 0 0), 1, 1, 1, 1. split; [lra|]. split; [lra|].
  rewrite zeeman_gradient, (iec_gradient _ _ _ _ _ 1 1) by lra. unfold H_iec, mu0. vsimp. lra.
Qed.
Lemma Norm_111 : Norm (CV 1 0 0) = 1.
Proof. apply Norm_unit. vsimp. ring. Qed.
Lemma energy_example : Norm2 (CV 1 0 0) = 1 /\ Norm2 (Plus (CV 1 0 0) (CV (-1) 1 0)) = 1 /\
  calculateAnisotropyEnergy (CV 1 0 0) (CV 1 0 0) 3 2 = Ok 0 /\
  calculateAnisotropyEnergy (Plus (CV 1 0 0) (CV (-1) 1 0)) (CV 1 0 0) 3 2 = Ok 6.
Proof.
  assert (U : Norm2 (Plus (CV 1 0 0) (CV (-1) 1 0)) = 1) by (vsimp; ring).
  split; [vsimp; ring|]. split; [exact U|]. split; apply anis_val.
  - split; [intros H; injection H; intros; lra|]. split; [intros H; injection H; intros; lra|]. unfold Angle2. rewrite Norm_111. vsimp. field.
  - split; [apply unit_nonzero, U|]. split; [intros H; injection H; intros; lra|]. unfold Angle2. rewrite Norm_111, (Norm_unit _ U). vsimp. field.
Qed.
Lemma getter_example : exists j l0 l1, first_with "a" j l0 /\ first_with "b" j l1 /\ absent "c" j /\
  saved [("x", [1; 2]); ("y", [3; 4])]%string 2 ["x"; "y"]%string [[1; 3]; [2; 4]].
Proof.
  exists (JN MR_NONE [ex_layer "a" (CV 0 0 2); ex_layer "b" (CV 0 0 2)] 0 0 [] [] [] [] [] [] [] [] 0 "R"), (ex_layer "a" (CV 0 0 2)), (ex_layer "b" (CV 0 0 2)).
  split. { exists 0%nat. split; [reflexivity|]. split; [reflexivity|]. intros q k Hq. lia. }
  split. { exists 1%nat. split; [reflexivity|]. split; [reflexivity|]. intros [|q] k Hq Hk; [injection Hk as <-; discriminate|lia]. }
  split. { intros l [<-|[<-|[]]]; discriminate. }
  split; [reflexivity|]. split; [reflexivity|]. split.
  - intros [|[|[|c]]] k col H; cbn in H; try discriminate; injection H as <- <-; reflexivity.
  - intros [|[|[|i]]] row H; cbn in H; try discriminate; injection H as <-; (split; [reflexivity|]);
    intros [|[|[|c]]] k col Hc; cbn in Hc; try discriminate; injection Hc as <- <-; (split; [reflexivity|discriminate]).
Qed.
