(** Properties C68-C71: the geometry in double arithmetic. *)
From Coq Require Import ZArith QArith Qround Qabs String List Bool Lia Lqa.
From Verif Require Import Base Mat GridMapMath GridIter CostMap Spec History BaseLemmas GeoLemmas CoreProofs CoreProofs2 MoveProofs MoveFinal
  Iterators Samples PropWindow DoubleSpec DoubleGeo DoubleMap DoubleMove DoubleSub FilterProofs DoubleShape DoubleEllipse.
Import ListNotations.
Open Scope Z_scope.

(** C68. A map made by setGeometry, of the requested length up to half a cell. *)
Theorem C68_geometry : forall (E : Env), real_or_double E -> forall W l r p m m', W <= 2 ^ 44 ->
  setGeometry l r p m = Ret tt m' -> 0 < fst (size m') -> 0 < snd (size m') ->
  (Qabs (fst p) + inject_Z (fst (size m')) * r <= inject_Z W * r)%Q ->
  (Qabs (snd p) + inject_Z (snd (size m')) * r <= inject_Z W * r)%Q ->
  dgeo W m' /\ resn m' = r /\ pos m' = p /\ start m' = (0, 0) /\ close (r / 2 + blur W m') (len m') l.
Proof.
  intros E X W l r p m m' HW H Z0 Z1 F0 F1. pose proof (near_real E X) as N.
  unfold setGeometry in H. destruct (Qlt_bool 0 (fst l)) eqn:L0; [|discriminate].
  destruct (Qlt_bool 0 (snd l)) eqn:L1; [|discriminate]. destruct (Qlt_bool 0 r) eqn:HR; [|discriminate].
  apply Qlt_bool_iff in L0, L1, HR. cbn [negb andb] in H.
  unfold bind, resize, clearAll, modify in H. injection H as <-.
  cbn [size resn pos start len set_geo set_data set_size fst snd] in *.
  set (n0 := Qround_away (fdiv (fst l) r)) in *. set (n1 := Qround_away (fdiv (snd l) r)) in *.
  set (m' := set_geo _ _ _ _ _).
  assert (ER : resn m' = r) by reflexivity. assert (EZ : size m' = (n0, n1)) by reflexivity.
  assert (AX : forall n, 0 < n -> (Qabs (fmul (inject_Z n) r - inject_Z n * r) <= ulp * (inject_Z n * r))%Q).
  { intros n Hn. unfold fmul. pose proof (N (inject_Z n * r)%Q) as K.
    assert (Qabs (inject_Z n * r) == inject_Z n * r)%Q as EA.
    { apply Qabs_pos. apply Qmult_le_0_compat; [change 0%Q with (inject_Z 0); rewrite <- Zle_Qle; lia|lra]. }
    now rewrite EA in K. }
  split.
  { constructor; cbn [m' size resn pos start len set_geo set_data set_size fst snd]; auto.
    unfold in_range; cbn [fst snd]. lia. }
  split; [reflexivity|]. split; [reflexivity|]. split; [reflexivity|].
  pose proof (small_A W m' HW HR) as SA. rewrite ER in SA.
  assert (AL : forall n x c, 0 < n -> (0 < x)%Q -> n = Qround_away (fdiv x r) -> (Qabs c + inject_Z n * r <= inject_Z W * r)%Q ->
    (Qabs (fmul (inject_Z n) r - x) <= r / 2 + blur W m')%Q).
  { intros n x c Hn Hx HE HF. pose proof (AX n Hn) as K. apply Qabs_Qle_condition in K as [K1 K2].
    pose proof (Qabs_nonneg c) as CP. 
    assert (NR : (0 <= inject_Z n * r)%Q).
    { apply Qmult_le_0_compat; [change 0%Q with (inject_Z 0); rewrite <- Zle_Qle; lia|lra]. }
    assert (RN : (r <= inject_Z n * r)%Q).
    { setoid_replace r with (1 * r)%Q at 1 by ring. apply Qmult_le_compat_r; [|lra].
      change 1%Q with (inject_Z 1). rewrite <- Zle_Qle. lia. }
    assert (UN : (ulp * (inject_Z n * r) <= ulp * (inject_Z W * r))%Q).
    { apply Qmult_le_l; [reflexivity|]. set (nn := (inject_Z n * r)%Q) in *. clearbody nn. lra. }
    unfold fdiv in HE. pose proof (Qround_away_near (rnd (x / r))) as Q. rewrite <- HE in Q. apply Qabs_Qle_condition in Q as [Q1 Q2].
    assert (XR : (x / r * r == x)%Q) by (field; lra).
    assert (XP : (0 <= x / r)%Q) by (apply Qle_shift_div_l; lra).
    pose proof (N (x / r)%Q) as NE. rewrite (Qabs_pos (x / r)) in NE by auto. apply Qabs_Qle_condition in NE as [N1 N2].
    set (z := rnd (x / r)) in *. clearbody z.
    assert (MU : forall a b, (a <= b -> a * r <= b * r)%Q) by (intros; apply Qmult_le_compat_r; lra).
    apply MU in Q1. apply MU in Q2. apply MU in N1. apply MU in N2.
    assert (E1 : ((z - inject_Z n) * r == z * r - inject_Z n * r)%Q) by ring. rewrite E1 in Q1, Q2.
    assert (E2 : (- (1#2) * r == - ((1#2) * r))%Q) by ring. rewrite E2 in Q1.
    assert (E3 : ((z - x / r) * r == z * r - x)%Q) by (rewrite <- XR at 2; ring). rewrite E3 in N1, N2.
    assert (E4 : (- (ulp * (x / r)) * r == - (ulp * x))%Q) by (rewrite <- XR at 2; ring). rewrite E4 in N1.
    assert (E5 : (ulp * (x / r) * r == ulp * x)%Q) by (rewrite <- XR at 2; ring). rewrite E5 in N2.
    rewrite blur_eq, ER. assert (EH : (r / 2 == (1#2) * r)%Q) by field. rewrite EH.
    set (f := fmul (inject_Z n) r) in *. clearbody f.
    set (zr := (z * r)%Q) in *. set (nn := (inject_Z n * r)%Q) in *. set (WR := (inject_Z W * r)%Q) in *. clearbody zr nn WR.
    clear E1 E2 E3 E4 E5 XR XP MU AX. 
    apply Qabs_Qle_condition. unfold ulp in *. split; lra. }
  split; cbn [m' len set_geo set_data set_size fst snd].
  - exact (AL n0 (fst l) (fst p) Z0 L0 eq_refl F0).
  - exact (AL n1 (snd l) (snd p) Z1 L1 eq_refl F1).
Qed.
Print Assumptions C68_geometry.

(** Index to position and back. *)
Theorem C68_roundtrip : forall (E : Env), real_or_double E -> forall W m i, W <= 2 ^ 44 -> dgeo W m -> in_range (size m) i ->
  exists p, getPosition m i = Some p /\ close (blur W m) p (centre m i) /\ isInside m p = true /\ getIndex m p = (true, i).
Proof. intros E X W m i HW. apply roundtrip_map; auto. now apply near_real. Qed.
Print Assumptions C68_roundtrip.

(** Position to cell. *)
Theorem C68_lookup : forall (E : Env), real_or_double E -> forall W m p, W <= 2 ^ 44 -> dgeo W m ->
  (isInside m p = true -> inside_by (blur W m) m p) /\
  (inside_by (- blur W m) m p -> exists i, getIndex m p = (true, i) /\ in_range (size m) i /\
     close (resn m / 2 + blur W m) p (centre m i)).
Proof.
  intros E X W m p HW G. pose proof (near_real E X) as N. split.
  - now apply inside_up.
  - intros I. pose proof (inside_down N W HW m p G I) as H. destruct I as (I1 & I2 & I3 & I4).
    apply index_close; auto; lra.
Qed.
Print Assumptions C68_lookup.

(** 7 x 7 cells of 0.2 m, moved by one cell: the position -0.5 counts as inside but
    is looked up in the cell at the other end of the map, six cells away. *)
Definition tenths (k : Z) : Q := rne 53 (k # 10).
Definition lapped : cmap := Eval vm_compute in
  after (move (E := binary64 BWrap) (tenths 2, 0)%Q)
    (after (setGeometry (E := binary64 BWrap) (tenths 14, tenths 14) (tenths 2) (0, 0)%Q) (new_map ["a"%string])).

Theorem C68_border_refuted : exists i, dgeo 11 lapped /\ isInside (E := binary64 BWrap) lapped (-1#2, 0)%Q = true /\
  getIndex (E := binary64 BWrap) lapped (-1#2, 0)%Q = (true, i) /\ in_range (size lapped) i /\
  (6 * resn lapped < fst (centre lapped i) - (-1#2))%Q.
Proof.
  exists (6, 3). split.
  { constructor; vm_compute; intuition discriminate. }
  conj_vm.
Qed.
Print Assumptions C68_border_refuted.

(** C69. One move. *)
Theorem C69_move : forall (E : Env), real_or_double E -> bpol = BWrap -> forall W p m, W <= 2 ^ 44 ->
  dgeo W m -> reg_ok' m -> basics_exist m -> near_target W m p ->
  exists b rs m' s, move p m = Ret (b, rs) m' /\ dgeo W m' /\ reg_ok' m' /\ basics_exist m' /\
    displaced (blur W m) m m' s /\ close (resn m / 2 + blur W m) (pos m') p /\ (b = true <-> s <> (0, 0)) /\ shifted m m' rs s.
Proof.
  intros E X P W p m HW G R B T. 
  destruct (move_double (near_real E X) W HW P p m G R B T) as (b & rs & m' & s & H & G' & R' & B' & S & D & C & F).
  exists b, rs, m', s. auto 10.
Qed.
Print Assumptions C69_move.

(** Any number of moves: drift, and what the centre of a cell shows. *)
Theorem C69_trace : forall (E : Env), real_or_double E -> bpol = BWrap -> forall W m, W <= 2 ^ 44 ->
  dgeo W m -> reg_ok' m -> basics_exist m -> forall ps, (forall p, In p ps -> near_target W m p) ->
  exists tr m' s, move_trace m tr m' /\ map snd tr = ps /\ dgeo W m' /\ reg_ok' m' /\
    displaced (inject_Z (Z.of_nat (List.length ps)) * blur W m) m m' s /\
    forall j p, (inject_Z (Z.of_nat (List.length ps) + 1) * blur W m <= (1#4) * resn m)%Q -> getPosition m' j = Some p ->
      ((forall mi, In mi (map fst tr) -> isInside mi p = true) -> forall l, atPosition m' l p = atPosition m l p) /\
      ((exists mi, In mi (map fst tr) /\ isInside mi p = false) -> forall l, cleared_layer m l -> atPosition m' l p = Ok unknown).
Proof.
  intros E X P W m HW G R B ps HP. pose proof (near_real E X) as N.
  destruct (trace_total N W HW P m G R B ps HP) as (tr & m' & T & L).
  assert (HT : forall p, In p (map snd tr) -> near_target W m p) by (rewrite L; auto).
  destruct (trace_double N W HW P m tr m' G R B HT T) as ((G' & R' & _ & _ & _ & _ & _ & _ & A6 & A7 & _) & (s & D) & V).
  assert (LT : List.length tr = List.length ps) by (rewrite <- L; now rewrite map_length). rewrite LT in *.
  exists tr, m', s. split; auto. split; auto. split; auto. split; auto. split; auto.
  intros j p HB Hp.
  assert (Hj : in_range (size m') j).
  { unfold getPosition, position_from_index in Hp. destruct (index_in_range j (size m')) eqn:K; [|discriminate].
    now apply index_in_range_iff. }
  destruct (position_close N W HW m' j G' Hj) as (p' & Hp' & C). rewrite Hp in Hp'. injection Hp' as <-.
  assert (BE : blur W m' = blur W m) by (unfold blur; now rewrite A6). rewrite BE in C.
  apply (V p (world_index m' j) (blur W m)).
  - exact C.
  - unfold many. rewrite inject_Z_plus in HB. change (inject_Z 1) with 1%Q in HB. lra.
  - rewrite <- A7. now apply (world_range W).
Qed.
Print Assumptions C69_trace.

(** The map of 7 x 7 cells of 0.2 m, filled with the numbers 0..48, and moved by one
    cell towards +x and two towards -y; 0.2, 1.4, 0.3 and 0.43 are not doubles. *)
Definition decimal : cmap := Eval vm_compute in
  after (add "a" (Mat 7 7 (map Z.of_nat (seq 0 49))))
    (after (setGeometry (E := binary64 BWrap) (tenths 14, tenths 14) (tenths 2) (tenths 3, tenths 3)) (new_map ["a"%string])).
Definition decimal' : cmap := Eval vm_compute in after (move (E := binary64 BWrap) (tenths 5, rne 53 (-43#1000))) decimal.

Ltac dgeo_vm := constructor; vm_compute; intuition discriminate.

Example C68_case : real_or_double (binary64 BWrap) /\
  dgeo 11 decimal /\ dgeo 11 decimal' /\ start decimal' = (6, 2) /\
  (* the rounded position differs from the exact centre *)
  (exists p, getPosition (E := binary64 BWrap) decimal' (2, 4) = Some p /\ ~ veq p (centre decimal' (2, 4)) /\
     close (blur 11 decimal') p (centre decimal' (2, 4)) /\ getIndex (E := binary64 BWrap) decimal' p = (true, (2, 4))) /\
  inside_by (- blur 11 decimal') decimal' (tenths 1, tenths 3) /\
  getIndex (E := binary64 BWrap) decimal' (tenths 1, tenths 3) = (true, (4, 3)) /\
  atPosition (E := binary64 BWrap) decimal' "a" (tenths 1, tenths 3) = Ok 25 /\
  atPosition (E := binary64 BWrap) decimal "a" (tenths 1, tenths 3) = Ok 25.
Proof.
  split; [right; eexists; reflexivity|]. split; [dgeo_vm|]. split; [dgeo_vm|].
  split; [vm_compute; reflexivity|]. split.
  { eexists. split; [vm_compute; reflexivity|]. split; [vm_compute; intuition discriminate|].
    split; [vm_compute; intuition discriminate|]. vm_compute. reflexivity. }
  split; [vm_compute; intuition discriminate|]. split; [vm_compute; reflexivity|]. split; vm_compute; reflexivity.
Qed.

Example C69_case : bpol (Env := binary64 BWrap) = BWrap /\ dgeo 11 decimal /\ reg_ok' decimal /\ basics_exist decimal /\
  near_target 11 decimal (tenths 5, rne 53 (-43#1000)) /\ (inject_Z 2 * blur 11 decimal <= (1#4) * resn decimal)%Q /\
  move_trace (E := binary64 BWrap) decimal [(decimal, (tenths 5, rne 53 (-43#1000)))] decimal' /\
  displaced (blur 11 decimal) decimal decimal' (1, -2) /\
  (exists p, getPosition (E := binary64 BWrap) decimal' (4, 3) = Some p /\ isInside (E := binary64 BWrap) decimal p = true /\
     atPosition (E := binary64 BWrap) decimal' "a" p = Ok 25 /\ atPosition (E := binary64 BWrap) decimal "a" p = Ok 25) /\
  (exists p, getPosition (E := binary64 BWrap) decimal' (6, 3) = Some p /\ isInside (E := binary64 BWrap) decimal p = false /\
     atPosition (E := binary64 BWrap) decimal' "a" p = Ok 255).
Proof.
  split; [reflexivity|]. split; [dgeo_vm|]. split; [apply reg_okb_ok; vm_compute; reflexivity|].
  split; [apply basics_existb_ok; vm_compute; reflexivity|]. split; [vm_compute; intuition discriminate|].
  split; [vm_compute; discriminate|]. split.
  { eapply (mt_snoc (E := binary64 BWrap) decimal [] decimal (tenths 5, rne 53 (-43#1000)) true). constructor.
    vm_compute. reflexivity. }
  split; [vm_compute; intuition discriminate|]. split.
  - eexists. split; [vm_compute; reflexivity|]. conj_vm.
  - eexists. split; [vm_compute; reflexivity|]. conj_vm.
Qed.

(** C70. A request clear of the border by two blurs on every side. *)
Theorem C70_submap : forall (E : Env), real_or_double E -> forall W m q l, W < 2 ^ 44 -> dgeo W m -> reg_ok' m ->
  inside_by (- (2 * blur W m)) m (fst q + fst l / 2, snd q + snd l / 2)%Q ->
  inside_by (- (2 * blur W m)) m (fst q - fst l / 2, snd q - snd l / 2)%Q ->
  (5 * blur W m <= fst l)%Q -> (5 * blur W m <= snd l)%Q ->
  exists sub, getSubmap m q l = Ok (true, sub) /\ dgeo (W + 1) sub /\ reg_ok' sub /\
    layers sub = layers m /\ basic sub = basic m /\ frame sub = frame m /\ stamp sub = stamp m /\
    resn sub = resn m /\ start sub = (0, 0) /\
    (forall j, in_range (size sub) j -> exists i, in_range (size m) i /\ close (blur W m) (centre sub j) (centre m i) /\
       forall k, at_ sub k j = at_ m k i) /\
    (forall p, (Qabs (fst p - fst q) <= fst l / 2)%Q -> (Qabs (snd p - snd q) <= snd l / 2)%Q -> inside_by (2 * blur W m) sub p) /\
    (forall p, inside_by 0 sub p -> (Qabs (fst p - fst q) < fst l / 2 + resn m + 2 * blur W m)%Q /\
                                    (Qabs (snd p - snd q) < snd l / 2 + resn m + 2 * blur W m)%Q).
Proof.
  intros E X W m q l HW G R U L L0 L1. 
  destruct (submap_double (near_real E X) W HW m q l G (proj1 R) U L L0 L1) as (sub & H & G' & R' & T).
  exists sub. split; auto. split; auto. split; auto. split; auto. destruct (d_size _ _ G'). lia.
Qed.
Print Assumptions C70_submap.

Example C70_case : exists sub, dgeo 11 decimal' /\ reg_ok' decimal' /\
  inside_by (- (2 * blur 11 decimal')) decimal' (tenths 3 + tenths 7 / 2, tenths 1 + tenths 5 / 2)%Q /\
  inside_by (- (2 * blur 11 decimal')) decimal' (tenths 3 - tenths 7 / 2, tenths 1 - tenths 5 / 2)%Q /\
  (5 * blur 11 decimal' <= tenths 7)%Q /\ (5 * blur 11 decimal' <= tenths 5)%Q /\
  getSubmap (E := binary64 BWrap) decimal' (tenths 3, tenths 1) (tenths 7, tenths 5) = Ok (true, sub) /\
  size sub = (5, 3) /\ start decimal' <> (0, 0).
Proof.
  eexists. split; [dgeo_vm|]. split; [apply reg_okb_ok; vm_compute; reflexivity|]. do 4 (split; [vm_compute; intuition discriminate|]).
  split; [vm_compute; reflexivity|]. split; [reflexivity|]. vm_compute. discriminate.
Qed.

(** C70, C71. 20 x 20 cells of 1 m between the origin and (20, 20). The clamping of
    positions at the border is absorbed by rounding: requests that reach over the
    border at the origin fail. *)
Definition corner_map : cmap := Eval vm_compute in after (setGeometry (E := binary64 BWrap) (20#1, 20#1)%Q 1%Q (10#1, 10#1)%Q) (new_map ["a"%string]).

Theorem C70_border_refuted : geo_ok corner_map /\ reg_ok' corner_map /\ inside corner_map (1#2, 1#2)%Q /\
  veq (lower corner_map) (0, 0)%Q /\
  getSubmap (E := binary64 BWrap) corner_map (1#2, 1#2)%Q (2#1, 2#1)%Q = Ok (false, new_map ["a"%string]).
Proof.
  split; [apply geo_okb_ok; vm_compute; reflexivity|]. split; [apply reg_okb_ok; vm_compute; reflexivity|]. conj_vm.
Qed.
Print Assumptions C70_border_refuted.

Theorem C71_border_refuted : geo_ok corner_map /\ start corner_map = (0, 0) /\
  circle_visits (E := binary64 BWrap) corner_map (1#2, 1#2)%Q 1 = Fault Uninit /\
  polygon_visits (E := binary64 BWrap) corner_map [(-1#1, -1#1); (-1#1, 1#1); (1#1, 1#1); (1#1, -1#1)]%Q = Fault Uninit.
Proof.
  split; [apply geo_okb_ok; vm_compute; reflexivity|]. conj_vm.
Qed.
Print Assumptions C71_border_refuted.

(** C71. Shapes clear of the border by two blurs. The circle and the ellipse leave
    out cells on a map that was moved, as in exact arithmetic (C29). *)
Theorem C71_circle : forall (E : Env), real_or_double E -> forall W m c R, W <= 2 ^ 44 -> dgeo W m -> (2 * blur W m <= R)%Q ->
  inside_by (- (2 * blur W m)) m (fst c + R, snd c + R)%Q -> inside_by (- (2 * blur W m)) m (fst c - R, snd c - R)%Q ->
  exists vs, circle_visits m c R = Ok vs /\ NoDup vs /\
    (forall i, In i vs -> in_range (size m) i /\ in_circle c (R + 2 * blur W m) (centre m i)) /\
    (start m = (0, 0) -> forall i, in_range (size m) i -> in_circle c (R - 2 * blur W m) (centre m i) -> In i vs).
Proof. intros E X W m c R HW G. now apply (circle_double (near_real E X) W HW). Qed.
Print Assumptions C71_circle.

Theorem C71_ellipse : forall (E : Env), real_or_double E -> forall sqr W m c L cs sn M tau, sqrt_approx sqr -> W <= 2 ^ 44 -> dgeo W m ->
  (0 < fst L)%Q -> (0 < snd L)%Q -> (fst L <= M)%Q -> (snd L <= M)%Q ->
  (9#10 <= cs * cs + sn * sn)%Q -> (cs * cs + sn * sn <= 11#10)%Q -> (0 < tau)%Q -> (tau < 1)%Q ->
  (10 * blur W m <= tau * fst L)%Q -> (10 * blur W m <= tau * snd L)%Q ->
  inside_by (- (2 * blur W m)) m (fst c + (6#5) * M, snd c + (6#5) * M)%Q ->
  inside_by (- (2 * blur W m)) m (fst c - (6#5) * M, snd c - (6#5) * M)%Q ->
  exists vs, ellipse_visits sqr m c L cs sn = Ok vs /\ NoDup vs /\
    (forall i, In i vs -> in_range (size m) i /\ in_ellipse c (scaled (1 + tau) L) cs sn (centre m i)) /\
    (start m = (0, 0) -> forall i, in_range (size m) i -> in_ellipse c (scaled (1 - tau) L) cs sn (centre m i) -> In i vs).
Proof. intros E X sqr W m c L cs sn M tau SQ HW G. now apply (ellipse_double (near_real E X) W HW). Qed.
Print Assumptions C71_ellipse.

Theorem C71_polygon : forall (E : Env), real_or_double E -> forall W m vs, W <= 2 ^ 44 -> dgeo W m -> vs <> [] ->
  (forall v, In v vs -> inside_by (- (2 * blur W m)) m v) ->
  exists js, polygon_visits m vs = Ok js /\ NoDup js /\ (forall i, In i js -> in_range (size m) i) /\
    (forall i p, in_range (size m) i -> getPosition m i = Some p -> clear_of (blur W m) vs p -> (In i js <-> in_polygon vs p)).
Proof. intros E X W m vs HW G. now apply (polygon_double (near_real E X) W HW). Qed.
Print Assumptions C71_polygon.

(** Circle, ellipse and square around the middle of the map of C68_case before the
    move. *)
Definition square71 : list vec := [(0, 0); (0, tenths 6); (tenths 6, tenths 6); (tenths 6, 0)]%Q.
Example C71_case : exists cv ev pv p, dgeo 11 decimal /\ start decimal = (0, 0) /\
  (2 * blur 11 decimal <= tenths 5)%Q /\
  inside_by (- (2 * blur 11 decimal)) decimal (tenths 3 + tenths 5, tenths 3 + tenths 5)%Q /\
  inside_by (- (2 * blur 11 decimal)) decimal (tenths 3 - tenths 5, tenths 3 - tenths 5)%Q /\
  circle_visits (E := binary64 BWrap) decimal (tenths 3, tenths 3) (tenths 5) = Ok cv /\ length cv = 21%nat /\
  (10 * blur 11 decimal <= (1#1000000) * tenths 4)%Q /\
  inside_by (- (2 * blur 11 decimal)) decimal (tenths 3 + (6#5) * tenths 5, tenths 3 + (6#5) * tenths 5)%Q /\
  inside_by (- (2 * blur 11 decimal)) decimal (tenths 3 - (6#5) * tenths 5, tenths 3 - (6#5) * tenths 5)%Q /\
  ellipse_visits (E := binary64 BWrap) qsqrt decimal (tenths 3, tenths 3) (tenths 5, tenths 4) (tenths 8) (tenths 6) = Ok ev /\ length ev = 5%nat /\
  (forall v, In v square71 -> inside_by (- (2 * blur 11 decimal)) decimal v) /\
  polygon_visits (E := binary64 BWrap) decimal square71 = Ok pv /\ length pv = 9%nat /\
  In (3, 3) pv /\ getPosition (E := binary64 BWrap) decimal (3, 3) = Some p /\
  clear_of (blur 11 decimal) square71 p /\ in_polygon square71 p.
Proof.
  do 4 eexists. split; [dgeo_vm|]. split; [vm_compute; reflexivity|]. do 3 (split; [vm_compute; intuition discriminate|]).
  split; [vm_compute; reflexivity|]. split; [reflexivity|]. do 3 (split; [vm_compute; intuition discriminate|]).
  split; [vm_compute; reflexivity|]. split; [reflexivity|].
  split. { intros v [<-|[<-|[<-|[<-|[]]]]]; vm_compute; intuition discriminate. }
  split; [vm_compute; reflexivity|]. split; [reflexivity|]. split; [vm_compute; tauto|]. split; [vm_compute; reflexivity|].
  split; [|apply (polygon_contains_iff (E := exact_wrap)); [exact exact_wrap_Exact|vm_compute; reflexivity]].
  intros a b t HI T0 T1. vm_compute in HI. set (e := blur 11 decimal). vm_compute in e. subst e.
  destruct HI as [H|[H|[H|[H|[]]]]]; injection H as <- <-; unfold along; cbn [fst snd]; intros HY.
  all: first [exfalso; lra | match goal with |- (_ < Qabs ?x)%Q => apply Qabs_case; intros; lra end].
Qed.
