(** Double arithmetic for extendToInclude: more of C20, C22 and C23. *)
From Coq Require Import ZArith QArith Qround Qabs Qfield String List Bool Lia Lqa.
From Verif Require Import Base Mat GridMapMath GridIter CostMap History BaseLemmas Spec DoubleSpec GeoLemmas CoreProofs CoreProofs2 CoreFinal IterProofs MoveProofs AddDataProofs ExtendProofs
  DoubleGeo DoubleMap DoubleSub DoubleExtend PropDouble PropDoubleMerge InflateFinal Samples.
Import ListNotations.
Open Scope Z_scope.

Lemma mx_max a b : (mx a b == Qmax a b)%Q.
Proof.
  unfold mx, Qmax. destruct (Qle_bool a b) eqn:K; [apply Qle_bool_iff in K|apply not_true_iff_false in K; rewrite Qle_bool_iff in K];
    destruct (Qlt_le_dec a b); lra.
Qed.
Lemma mn_min a b : (mn a b == Qmin a b)%Q.
Proof.
  unfold mn, Qmin. destruct (Qle_bool a b) eqn:K; [apply Qle_bool_iff in K|apply not_true_iff_false in K; rewrite Qle_bool_iff in K];
    destruct (Qlt_le_dec b a); lra.
Qed.

Theorem C22_double : forall (E : Env), real_or_double E -> forall W m other, W <= 2 ^ 41 ->
  dgeo W m -> reg_ok' m -> basics_exist m -> reaches W m other ->
  exists m' z, extendToInclude other m = Ret true m' /\ dgeo (4 * W + 8) m' /\ reg_ok' m' /\ resn m' = resn m /\
    layers m' = layers m /\ basic m' = basic m /\ frame m' = frame m /\ stamp m' = stamp m /\
    (* aligned *)
    close (blur (4 * W + 8) m) (upper m') (fst (upper m) + inject_Z (fst z) * resn m, snd (upper m) + inject_Z (snd z) * resn m)%Q /\
    (* around both maps, up to three cells *)
    close (3 * resn m) (upper m') (joint_upper m other) /\ close (3 * resn m) (lower m') (joint_lower m other) /\
    (* with the old values in their places *)
    (forall l i v, has_layer m l -> in_range (size m') i ->
       (value_at m' l i v <->
         (exists j, in_range (size m) j /\ same_place m m' z j i /\ value_at m l j v) \/
         ((forall j, in_range (size m) j -> ~ same_place m m' z j i) /\ v = unknown))).
Proof.
  intros E X W m other HW G R B Re. pose proof (near_real E X) as N.
  assert (MX : forall a b, (Qmax a b == mx a b)%Q) by (intros; now rewrite mx_max).
  assert (MN : forall a b, (Qmin a b == mn a b)%Q) by (intros; now rewrite mn_min).
  destruct (extend_axis (fst (pos m)) (fst (len m)) (fst (pos other)) (fst (len other))) as [[cx Lx] bx] eqn:E0.
  destruct (extend_axis (snd (pos m)) (snd (len m)) (snd (pos other)) (snd (len other))) as [[cy Ly] by_] eqn:E1.
  pose proof (d_res _ _ G) as Hr. destruct (d_size _ _ G) as [Z0 Z1].
  assert (HS : (4096 * (ulp * (inject_Z W * resn m)) <= resn m)%Q).
  { pose proof (small_A (8 * W) m ltac:(lia) Hr) as K. rewrite inject_Z_mult in K. change (inject_Z 8) with 8%Q in K. lra. }
  assert (WP : (resn m <= inject_Z W * resn m)%Q).
  { pose proof (d_far0 _ _ G) as F. pose proof (Qabs_nonneg (fst (pos m))) as P.
    assert (1 * resn m <= inject_Z (fst (size m)) * resn m)%Q as K.
    { apply Qmult_le_compat_r; [|lra]. change 1%Q with (inject_Z 1). rewrite <- Zle_Qle. lia. }
    set (a := (inject_Z (fst (size m)) * resn m)%Q) in *. set (b := (inject_Z W * resn m)%Q) in *. clearbody a b. lra. }
  assert (BL : (40 * (ulp * (inject_Z W * resn m)) <= blur (4 * W + 8) m)%Q).
  { rewrite blur_eq. 
    assert (EW : (ulp * (inject_Z (4 * W + 8) * resn m) == 4 * (ulp * (inject_Z W * resn m)) + 8 * (ulp * resn m))%Q).
    { rewrite inject_Z_plus, inject_Z_mult. change (inject_Z 4) with 4%Q. change (inject_Z 8) with 8%Q. ring. }
    rewrite EW. unfold ulp. set (a := (inject_Z W * resn m)%Q) in *. clearbody a. lra. }
  destruct (bx || by_) eqn:K.
  - destruct (extend_double N W HW m other _ _ _ _ _ _ G R B Re E0 E1 K) as
      (m' & z & H & G' & R' & Er & A1 & A2 & A3 & A4 & C1 & C2 & C3 & V).
    exists m', z. do 8 (split; [assumption|]).
    split. { destruct C1 as [c0 c1]. split; [eapply Qle_trans; [exact c0|exact BL]|eapply Qle_trans; [exact c1|exact BL]]. }
    split. { destruct C2 as [c0 c1]. unfold close, joint_upper in *. cbn [fst snd] in *. rewrite !MX. auto. }
    split. { destruct C3 as [c0 c1]. unfold close, joint_lower in *. cbn [fst snd] in *. rewrite !MN. auto. }
    intros l i v Hl Hi. now apply V.
  - exists m, (0, 0). split. { unfold extendToInclude. rewrite E0, E1, K. reflexivity. }
    split. { destruct G as [A1 A2 A3 A4 A5 A6 A7]. constructor; auto.
      - eapply Qle_trans; [exact A6|]. apply Qmult_le_compat_r; [|lra]. rewrite <- Zle_Qle.
        assert (0 < W); [|lia]. destruct (Z.leb_spec W 0) as [Q|]; auto. exfalso. rewrite Zle_Qle in Q.
        pose proof (Qmult_le_compat_r _ _ _ Q (Qlt_le_weak _ _ Hr)) as Q'. change (inject_Z 0) with 0%Q in Q'. lra.
      - eapply Qle_trans; [exact A7|]. apply Qmult_le_compat_r; [|lra]. rewrite <- Zle_Qle.
        assert (0 < W); [|lia]. destruct (Z.leb_spec W 0) as [Q|]; auto. exfalso. rewrite Zle_Qle in Q.
        pose proof (Qmult_le_compat_r _ _ _ Q (Qlt_le_weak _ _ Hr)) as Q'. change (inject_Z 0) with 0%Q in Q'. lra. }
    do 6 (split; [assumption || reflexivity|]).
    destruct Re as (O1 & O2 & O3 & O4). apply orb_false_iff in K as [-> ->].
    destruct (axis_map N W _ _ _ _ _ _ _ _ _ Hr Z0 (d_len0 _ _ G) (d_far0 _ _ G) HS O1 O3 E0) as (K0 & _ & U0 & V0 & _).
    destruct (axis_map N W _ _ _ _ _ _ _ _ _ Hr Z1 (d_len1 _ _ G) (d_far1 _ _ G) HS O2 O4 E1) as (K1 & _ & U1 & V1 & _).
    destruct (K0 eq_refl) as [-> ->]. destruct (K1 eq_refl) as [-> ->].
    assert (EH : forall x, (x / 2 == (1#2) * x)%Q) by (intros; field).
    assert (MXP : forall a b a' b', (a == a' -> b == b' -> mx a b == mx a' b')%Q).
    { intros a b a' b' K1' K2'. unfold mx. destruct (Qlt_le_dec a b), (Qlt_le_dec a' b'); lra. }
    assert (MNP : forall a b a' b', (a == a' -> b == b' -> mn a b == mn a' b')%Q).
    { intros a b a' b' K1' K2'. unfold mn. destruct (Qlt_le_dec b a), (Qlt_le_dec b' a'); lra. }
    split. { unfold close. cbn [fst snd]. change (inject_Z 0) with 0%Q.
      assert (BP : (0 <= blur (4 * W + 8) m)%Q) by (unfold ulp in BL; lra).
      split; apply Qabs_Qle_condition; split; lra. }
    apply Qabs_Qle_condition in U0, U1, V0, V1.
    split. { unfold close, joint_upper. cbn [fst snd]. rewrite !MX.
      rewrite (MXP _ _ _ _ (Qplus_comp _ _ (Qeq_refl (fst (pos m))) _ _ (EH (fst (len m)))) (Qplus_comp _ _ (Qeq_refl (fst (pos other))) _ _ (EH (fst (len other))))).
      rewrite (MXP _ _ _ _ (Qplus_comp _ _ (Qeq_refl (snd (pos m))) _ _ (EH (snd (len m)))) (Qplus_comp _ _ (Qeq_refl (snd (pos other))) _ _ (EH (snd (len other))))).
      unfold upper. cbn [fst snd]. rewrite (EH (fst (len m))), (EH (snd (len m))). split; apply Qabs_Qle_condition; split; lra. }
    split. { unfold close, joint_lower. cbn [fst snd]. rewrite !MN.
      rewrite (MNP _ _ _ _ (Qminus_comp _ _ (Qeq_refl (fst (pos m))) _ _ (EH (fst (len m)))) (Qminus_comp _ _ (Qeq_refl (fst (pos other))) _ _ (EH (fst (len other))))).
      rewrite (MNP _ _ _ _ (Qminus_comp _ _ (Qeq_refl (snd (pos m))) _ _ (EH (snd (len m)))) (Qminus_comp _ _ (Qeq_refl (snd (pos other))) _ _ (EH (snd (len other))))).
      unfold lower. cbn [fst snd]. rewrite (EH (fst (len m))), (EH (snd (len m))). split; apply Qabs_Qle_condition; split; lra. }
    intros l i v Hl Hi.
    assert (SP : forall j, same_place m m (0, 0) j i <-> world_index m i = world_index m j).
    { intros j. unfold same_place. cbn [fst snd]. rewrite !Z.add_0_r, <- surjective_pairing. reflexivity. }
    split.
    + intros V. left. exists i. split; [exact Hi|]. split; [now apply SP|exact V].
    + intros [(j & Hj & S & V)|[S _]].
      * apply SP in S. apply (world_index_inj' W m i j G Hi Hj) in S. now subst.
      * exfalso. apply (S i Hi). now apply SP.
Qed.
Print Assumptions C22_double.

(** Nothing happens when the other map is inside by the rounding error. *)
Theorem C22_double_stays : forall (E : Env), real_or_double E -> forall W m other, W <= 2 ^ 41 -> dgeo W m -> reaches W m other ->
  (fst (upper other) + blur W m <= fst (upper m))%Q -> (snd (upper other) + blur W m <= snd (upper m))%Q ->
  (fst (lower m) + blur W m <= fst (lower other))%Q -> (snd (lower m) + blur W m <= snd (lower other))%Q ->
  extendToInclude other m = Ret true m.
Proof.
  intros E X W m other HW G (O1 & O2 & O3 & O4) U0 U1 V0 V1. pose proof (near_real E X) as N.
  destruct (extend_axis (fst (pos m)) (fst (len m)) (fst (pos other)) (fst (len other))) as [[cx Lx] bx] eqn:E0.
  destruct (extend_axis (snd (pos m)) (snd (len m)) (snd (pos other)) (snd (len other))) as [[cy Ly] by_] eqn:E1.
  pose proof (d_res _ _ G) as Hr. destruct (d_size _ _ G) as [Z0 Z1].
  assert (HS : (4096 * (ulp * (inject_Z W * resn m)) <= resn m)%Q).
  { pose proof (small_A (8 * W) m ltac:(lia) Hr) as K. rewrite inject_Z_mult in K. change (inject_Z 8) with 8%Q in K. lra. }
  assert (DP : (0 <= ulp * (inject_Z W * resn m))%Q).
  { pose proof (d_far0 _ _ G) as F. pose proof (Qabs_nonneg (fst (pos m))) as P.
    assert (0 <= inject_Z (fst (size m)) * resn m)%Q as K.
    { apply Qmult_le_0_compat; [|lra]. change 0%Q with (inject_Z 0). rewrite <- Zle_Qle. lia. }
    apply Qmult_le_0_compat; [discriminate|]. 
    set (a := (inject_Z (fst (size m)) * resn m)%Q) in *. set (b := (inject_Z W * resn m)%Q) in *. clearbody a b. lra. }
  rewrite blur_eq in U0, U1, V0, V1. unfold upper, lower in U0, U1, V0, V1. cbn [fst snd] in U0, U1, V0, V1.
  assert (EH : forall x, (x / 2 == (1#2) * x)%Q) by (intros; field).
  rewrite (EH (fst (len m))), (EH (fst (len other))) in U0, V0. rewrite (EH (snd (len m))), (EH (snd (len other))) in U1, V1.
  destruct (axis_map N W _ _ _ _ _ _ _ _ _ Hr Z0 (d_len0 _ _ G) (d_far0 _ _ G) HS O1 O3 E0) as (_ & S0 & _).
  destruct (axis_map N W _ _ _ _ _ _ _ _ _ Hr Z1 (d_len1 _ _ G) (d_far1 _ _ G) HS O2 O4 E1) as (_ & S1 & _).
  set (D := (ulp * (inject_Z W * resn m))%Q) in *. clearbody D.
  unfold extendToInclude. rewrite E0, E1, (S0 ltac:(lra) ltac:(lra)), (S1 ltac:(lra) ltac:(lra)). reflexivity.
Qed.
Print Assumptions C22_double_stays.

(** Merging with extension is extension followed by merging. *)
Theorem C20_double_extended : forall (E : Env), real_or_double E -> forall W W' m other ow ca ls, W <= 2 ^ 41 -> W' <= 2 ^ 44 ->
  dgeo W m -> reg_ok' m -> basics_exist m -> reaches W m other -> dgeo W' other -> reg_ok other ->
  let sel := if ca : bool then layers other else ls in
  (forall l, In l sel -> has_layer other l) ->
  exists m1, extendToInclude other m = Ret true m1 /\
    let e := (blur (4 * W + 8) m1 + blur W' other)%Q in
    (off_border e m1 other -> exists m' src, addDataFrom other true ow ca ls m = Ret true m' /\ same_meta m1 m' /\
       (forall l, has_layer m' l <-> has_layer m l \/ In l sel) /\ covering e m1 other src /\
       forall l i v, has_layer m' l -> in_range (size m1) i ->
         let takes := taken e m1 other ow sel src l i in
         (value_at m' l i v <-> takes v \/ (~ (exists w, takes w) /\ value_or_unknown m1 l i v))).
Proof.
  intros E X W W' m other ow ca ls HW HW' G R B Re Go Ro sel HO.
  destruct (C22_double E X W m other HW G R B Re) as (m1 & z & H & G1 & R1 & _ & L1 & B1 & _).
  exists m1. split; [exact H|]. intros e OB.
  assert (Hh : forall l, has_layer m1 l <-> has_layer m l).
  { intros l. rewrite <- !exists_has, <- !akeys_has by (apply R || apply R1). now rewrite L1. }
  destruct (C20_double E X (4 * W + 8) W' m1 other ow ca ls ltac:(lia) HW' G1 R1 Go Ro OB HO) as (m' & H' & _ & M & _ & C & src & S & D).
  { intros b Hb. left. apply Hh. apply B. now rewrite <- B1. }
  exists m', src. split. { unfold addDataFrom in *. unfold bind at 1. rewrite H. exact H'. }
  split; [exact M|]. split; [intros l; rewrite C, Hh; tauto|]. split; [exact S|exact D].
Qed.
Print Assumptions C20_double_extended.

(** Maps for the examples below, computed once. *)
Definition plate (n0 n1 r x y first : Z) : cmap :=
  number_cells "a" first (after (setGeometry (E := binary64 BWrap) (tenths (n0 * r), tenths (n1 * r)) (tenths r) (tenths x, tenths y)) (new_map ["a"]%string)).
(** 3 x 2 cells of 0.2 m around (0.3, 0.1). *)
Definition base : cmap := Eval vm_compute in plate 3 2 2 3 1 0.
(** 2 x 1 cells of 0.3 m around (0.9, 0.5). *)
Definition aside : cmap := Eval vm_compute in plate 2 1 3 9 5 60.
Definition grown : cmap := Eval vm_compute in after (extendToInclude (E := binary64 BWrap) aside) base.
Definition joined : cmap := Eval vm_compute in after (addDataFrom (E := binary64 BWrap) aside true true true []) base.

Lemma reachesb W m other : (0 <= fst (len other))%Q -> (0 <= snd (len other))%Q ->
  (Qabs (fst (pos other)) + fst (len other) <= inject_Z W * resn m)%Q -> (Qabs (snd (pos other)) + snd (len other) <= inject_Z W * resn m)%Q ->
  reaches W m other.
Proof. unfold reaches; auto. Qed.

Example C22_double_case : dgeo 10 base /\ reg_ok' base /\ basics_exist base /\ reaches 10 base aside /\
  extendToInclude (E := binary64 BWrap) aside base = Ret true grown /\ size grown = (6, 4) /\
  (* two cells more at the upper x and y ends *)
  same_place base grown (2, 2) (0, 0) (2, 2) /\ at_ grown "a" (2, 2) = at_ base "a" (0, 0) /\
  same_place base grown (2, 2) (2, 1) (4, 3) /\ at_ grown "a" (4, 3) = at_ base "a" (2, 1) /\
  at_ grown "a" (1, 2) = Ok unknown /\
  dgeo 10 aside /\ reg_ok aside /\ off_border (blur 48 grown + blur 10 aside) grown aside /\
  addDataFrom (E := binary64 BWrap) aside true true true [] base = Ret true joined /\
  map (at_ joined "a") [(0, 0); (1, 0); (2, 2); (4, 3); (5, 0)] = map Ok [60; 61; 0; 5; 255].
Proof.
  split; [dgeo_vm|]. split; [apply reg_okb_ok; vm_compute; reflexivity|]. split; [apply basics_existb_ok; vm_compute; reflexivity|].
  split; [apply reachesb; vm_compute; discriminate|]. do 7 (split; [vm_compute; reflexivity|]).
  split; [dgeo_vm|]. split; [apply reg_okb_ok; vm_compute; reflexivity|].
  split; [apply off_borderb_ok; vm_compute; [intuition discriminate|reflexivity]|]. split; vm_compute; reflexivity.
Qed.

(** Positive side, odd number of cells: three cells of 0.1 m around 0, extended by the same
    row one cell further up.  The result has a new cell at the lower end instead and the
    other map's outermost cell, more than 0.4 cells outside, is dropped by addDataFrom.  With
    exact arithmetic it is included (C23_extend_includes). *)
Definition row0 : cmap := Eval vm_compute in plate 3 1 1 0 0 10.
Definition row1 : cmap := Eval vm_compute in plate 3 1 1 1 0 60.
Definition row_1 : cmap := Eval vm_compute in plate 3 1 1 (-1) 0 80.
Definition up1 : cmap := Eval vm_compute in after (extendToInclude (E := binary64 BWrap) row1) row0.
Definition up1_data : cmap := Eval vm_compute in after (addDataFrom (E := binary64 BWrap) row1 true true true []) row0.
Definition down2 : cmap := Eval vm_compute in after (extendToInclude (E := binary64 BWrap) row_1) row1.
Definition down2_data : cmap := Eval vm_compute in after (addDataFrom (E := binary64 BWrap) row_1 true true true []) row1.

Definition has_value (m : cmap) (l : string) (v : Z) : bool :=
  existsb (fun i => match at_ m l i with Ok w => w =? v | _ => false end) (visit_list (size m) (start m)).
Lemma has_value_no m l v : reg_ok m -> in_range (size m) (start m) -> has_value m l v = false -> forall i, ~ value_at m l i v.
Proof.
  intros R S H i V. pose proof (value_range _ _ _ _ R V) as J. apply CoreProofs2.at_value in V.
  apply (visit_list_In _ (start m)) in J; [|exact S]. apply not_true_iff_false in H. apply H.
  apply existsb_exists. exists i. split; [exact J|]. rewrite V. apply Z.eqb_refl.
Qed.

Definition lost (other m : cmap) (j : idx) (v : Z) : Prop :=
  dgeo 20 m /\ reg_ok' m /\ basics_exist m /\ dgeo 20 other /\ reg_ok other /\ reaches 20 m other /\
  in_range (size other) j /\ value_at other "a" j v /\ v <> unknown /\
  exists m1 m', extendToInclude (E := binary64 BWrap) other m = Ret true m1 /\ ~ inside_by ((2#5) * resn m1) m1 (centre other j) /\
    addDataFrom (E := binary64 BWrap) other true true true [] m = Ret true m' /\ forall i, ~ value_at m' "a" i v.

Lemma lostb other m j v m1 m' :
  dgeo 20 m -> reg_okb m = true -> basics_exist m -> dgeo 20 other -> reg_okb other = true -> reaches 20 m other ->
  index_in_range j (size other) = true -> at_ other "a" j = Ok v -> v <> unknown ->
  extendToInclude (E := binary64 BWrap) other m = Ret true m1 -> inside_byb ((2#5) * resn m1) m1 (centre other j) = false ->
  addDataFrom (E := binary64 BWrap) other true true true [] m = Ret true m' -> reg_okb m' = true -> start m' = (0, 0) -> 
  has_value m' "a" v = false -> lost other m j v.
Proof.
  intros G R B Go Ro Re J V U H1 I H2 R' S NV. split; [exact G|]. split; [now apply reg_okb_ok|]. split; [exact B|].
  split; [exact Go|]. split; [now apply reg_okb_ok|]. split; [exact Re|]. split; [now apply index_in_range_iff|].
  split; [now apply CoreProofs2.at_value|]. split; [exact U|].
  exists m1, m'. split; [exact H1|]. split; [rewrite <- inside_byb_iff, I; discriminate|]. split; [exact H2|].
  apply reg_okb_ok in R'. intros i Vi. refine (has_value_no m' "a" v (proj1 R') _ NV i Vi).
  pose proof (value_range _ _ _ _ (proj1 R') Vi) as K. rewrite S. destruct K. unfold in_range. cbn [fst snd]. lia.
Qed.

Theorem C23_double_refuted : exists other m j v,
  (* the other map sticks out at the upper x end only, by one cell up to a rounding error *)
  (fst (lower m) < fst (lower other))%Q /\ (Qabs (fst (upper other) - (fst (upper m) + resn m)) <= blur 20 m)%Q /\
  snd (lower m) = snd (lower other) /\ snd (upper m) = snd (upper other) /\ lost other m j v.
Proof.
  exists row1, row0, (0, 0), 60. split; [vm_compute; reflexivity|]. split; [vm_compute; discriminate|].
  split; [vm_compute; reflexivity|]. split; [vm_compute; reflexivity|].
  apply (lostb _ _ _ _ up1 up1_data);
  [dgeo_vm|vm_compute; reflexivity|apply basics_existb_ok; vm_compute; reflexivity|dgeo_vm|vm_compute; reflexivity
    |apply reachesb; vm_compute; discriminate|vm_compute; reflexivity|vm_compute; reflexivity|vm_compute; discriminate|vm_compute; reflexivity..].
Qed.
Print Assumptions C23_double_refuted.

(** Lower side, even number of cells: the row around 0.1 extended by the one around -0.1
    gets two new cells at the upper end instead. *)
Theorem C23_double_even_refuted : exists other m j v,
  (fst (upper other) < fst (upper m))%Q /\ (Qabs (fst (lower other) - (fst (lower m) - 2 * resn m)) <= blur 20 m)%Q /\
  snd (lower m) = snd (lower other) /\ snd (upper m) = snd (upper other) /\ lost other m j v.
Proof.
  exists row_1, row1, (2, 0), 82. split; [vm_compute; reflexivity|]. split; [vm_compute; discriminate|].
  split; [vm_compute; reflexivity|]. split; [vm_compute; reflexivity|].
  apply (lostb _ _ _ _ down2 down2_data);
  [dgeo_vm|vm_compute; reflexivity|apply basics_existb_ok; vm_compute; reflexivity|dgeo_vm|vm_compute; reflexivity
    |apply reachesb; vm_compute; discriminate|vm_compute; reflexivity|vm_compute; reflexivity|vm_compute; discriminate|vm_compute; reflexivity..].
Qed.
Print Assumptions C23_double_even_refuted.
