(** Linear interpolation (C24). *)
From Coq Require Import ZArith QArith Qround Qabs Qreduction Qfield String List Bool Lia Lqa ZifyBool.
From Verif Require Import Base Mat GridMapMath GridIter CostMap BaseLemmas GeoLemmas FloatLemmas FloatMono Spec CoreProofs CoreProofs2.
Import ListNotations.
Open Scope Z_scope.

(** Value at [p] of the bilinear function through the four points
    (x0,y0,b0), (x1,y0,b1), (x0,y2,b2), (x1,y2,b3). *)
Definition bilinear (x0 x1 y0 y2 b0 b1 b2 b3 : Q) (p : vec) : Q :=
  (let tx := (fst p - x0) / (x1 - x0) in
   let ty := (snd p - y0) / (y2 - y0) in
   b0 * (1 - tx) * (1 - ty) + b1 * tx * (1 - ty) + b2 * (1 - tx) * ty + b3 * tx * ty)%Q.

(** What is asked of the computation in doubles: on rectangles within [C] of the
    origin with sides of [r / 2] or more, and for positions in them, it is off by at
    most [d]. *)
Definition accurate (lin : list vec -> list Z -> vec -> Q) (r C d : Q) : Prop :=
  forall x0 x1 y0 y2 b0 b1 b2 b3 p,
    (Qabs x0 <= C -> Qabs x1 <= C -> Qabs y0 <= C -> Qabs y2 <= C -> r / 2 <= Qabs (x1 - x0) -> r / 2 <= Qabs (y2 - y0) ->
     0 <= (fst p - x0) / (x1 - x0) -> (fst p - x0) / (x1 - x0) <= 1 -> 0 <= (snd p - y0) / (y2 - y0) -> (snd p - y0) / (y2 - y0) <= 1 ->
     Forall (fun b => 0 <= b <= 255)%Z [b0; b1; b2; b3] ->
     Qabs (lin [(x0, y0); (x1, y0); (x0, y2); (x1, y2)] [b0; b1; b2; b3] p -
           bilinear x0 x1 y0 y2 (inject_Z b0) (inject_Z b1) (inject_Z b2) (inject_Z b3) p) <= d)%Q.

(** The exact solution. *)
Definition exactly (pts : list vec) (bs : list Z) (p : vec) : Q :=
  match pts, bs with
  | [(x0, y0); (x1, _); (_, y2); _], [b0; b1; b2; b3] => bilinear x0 x1 y0 y2 (inject_Z b0) (inject_Z b1) (inject_Z b2) (inject_Z b3) p
  | _, _ => 0%Q
  end.
Lemma exactly_accurate r C : accurate exactly r C 0.
Proof.
  intros x0 x1 y0 y2 b0 b1 b2 b3 p _ _ _ _ _ _ _ _ _ _ _. unfold exactly. set (B := bilinear _ _ _ _ _ _ _ _ _).
  assert (B - B == 0)%Q as -> by ring. discriminate.
Qed.

Open Scope Q_scope.
Lemma mix_bounds lo hi a b t : 0 <= t -> t <= 1 -> lo <= a -> a <= hi -> lo <= b -> b <= hi ->
  lo <= a * (1 - t) + b * t /\ a * (1 - t) + b * t <= hi.
Proof. intros. split; nra. Qed.

Lemma bilinear_bounds x0 x1 y0 y2 b0 b1 b2 b3 p lo hi :
  let tx := (fst p - x0) / (x1 - x0) in let ty := (snd p - y0) / (y2 - y0) in
  0 <= tx -> tx <= 1 -> 0 <= ty -> ty <= 1 ->
  (forall b, In b [b0; b1; b2; b3] -> lo <= b /\ b <= hi) ->
  lo <= bilinear x0 x1 y0 y2 b0 b1 b2 b3 p /\ bilinear x0 x1 y0 y2 b0 b1 b2 b3 p <= hi.
Proof.
  intros tx ty A1 A2 B1 B2 H. unfold bilinear. fold tx ty.
  assert (K : b0 * (1 - tx) * (1 - ty) + b1 * tx * (1 - ty) + b2 * (1 - tx) * ty + b3 * tx * ty ==
          (b0 * (1 - tx) + b1 * tx) * (1 - ty) + (b2 * (1 - tx) + b3 * tx) * ty) by ring.
  rewrite K. clear K.
  destruct (H b0), (H b1), (H b2), (H b3); simpl; auto.
  destruct (mix_bounds lo hi b0 b1 tx); auto. destruct (mix_bounds lo hi b2 b3 tx); auto.
  apply mix_bounds; auto.
Qed.

Lemma bilinear_poly x0 x1 y0 y2 b0 b1 b2 b3 : ~ x0 == x1 -> ~ y0 == y2 ->
  exists a b c d, (forall p, bilinear x0 x1 y0 y2 b0 b1 b2 b3 p == a + b * fst p + c * snd p + d * fst p * snd p) /\
    (a + b * x0 + c * y0 + d * x0 * y0 == b0) /\ (a + b * x1 + c * y0 + d * x1 * y0 == b1) /\
    (a + b * x0 + c * y2 + d * x0 * y2 == b2) /\ (a + b * x1 + c * y2 + d * x1 * y2 == b3).
Proof.
  intros Hx Hy. assert (~ x1 - x0 == 0) by (intros K; apply Hx; lra). assert (~ y2 - y0 == 0) by (intros K; apply Hy; lra).
  set (D := (x1 - x0) * (y2 - y0)).
  exists ((b0 * x1 * y2 - b1 * x0 * y2 - b2 * x1 * y0 + b3 * x0 * y0) / D),
    ((- (b0 * y2) + b1 * y2 + b2 * y0 - b3 * y0) / D), ((- (b0 * x1) + b1 * x0 + b2 * x1 - b3 * x0) / D),
    ((b0 - b1 - b2 + b3) / D).
  subst D. unfold bilinear.
  split; [intros p; field; auto|]. split; [field; auto|]. split; [field; auto|]. split; field; auto.
Qed.
Close Scope Q_scope.

Definition costs_ok (m : cmap) (l : string) : Prop := forall i v, value_at m l i v -> 0 <= v <= 255.


(** ** From the computed value to the cost *)

Lemma float_below : forallb (fun z => Qle_bool (inject_Z z) (rnd32 (inject_Z z - (1 # 67108864)))) (map (fun z => z + 1) (zseq 255)) = true.
Proof. vm_compute. reflexivity. Qed.

Lemma cast_float q B d : (0 <= d)%Q -> (d <= 1#4)%Q -> (Qabs (q - B) <= d)%Q -> (0 <= B)%Q -> (B <= 255)%Q ->
  exists v, to_uchar (rnd32 q) = Ok v /\ 0 <= v <= 255 /\ (inject_Z v <= B + d + (1 # 65536))%Q /\ (B - d - (1 # 65536) < inject_Z v + 1)%Q /\
    ((d <= 1 # 67108864)%Q -> forall lo hi, (inject_Z lo <= B)%Q -> (B <= inject_Z hi)%Q -> lo <= v <= hi).
Proof.
  intros D0 D1 QB B0 B1. apply Qabs_Qle_condition in QB as [QB0 QB1].
  assert (ER : (Qabs (rnd32 q - q) <= (1 # 65536))%Q).
  { apply Qle_trans with (1 := rne_error 24 q ltac:(lia)). change (pow2 (-(24))) with (1 # 16777216)%Q.
    assert (Qabs q <= 256)%Q by (apply Qabs_Qle_condition; lra). lra. }
  apply Qabs_Qle_condition in ER as [E0 E1].
  assert (LOW : (d <= 1 # 67108864)%Q -> forall lo, 1 <= lo -> (inject_Z lo <= B)%Q -> (inject_Z lo <= rnd32 q)%Q).
  { intros DS lo L1 LB. assert (LH : lo <= 255). { rewrite Zle_Qle. change (inject_Z 255) with 255%Q. lra. }
    apply Qle_trans with (rnd32 (inject_Z lo - (1 # 67108864))%Q); [|apply rne_mono; [lia|lra]].
    pose proof float_below as T. rewrite forallb_forall in T. apply Qle_bool_iff, T. apply in_map_iff. exists (lo - 1). split; [lia|]. apply In_zseq. lia. }
  set (t := rnd32 q) in *. clearbody t. unfold to_uchar. destruct (Qlt_le_dec t 0) as [TN|TP].
  - assert (Qtrunc t = 0) as ->.
    { assert (t == - (- t))%Q as -> by ring. rewrite Qtrunc_opp, (Qtrunc_unique (- t) 0); [reflexivity|lra| |]; change (inject_Z 0) with 0%Q; lra. }
    exists 0. split; [reflexivity|]. split; [lia|]. change (inject_Z 0) with 0%Q. split; [lra|]. split; [lra|]. intros DS lo hi L H. split.
    + destruct (Z.le_gt_cases lo 0); [auto|]. assert (inject_Z lo <= t)%Q by (apply LOW; auto; lia).
      assert (inject_Z 1 <= inject_Z lo)%Q by (rewrite <- Zle_Qle; lia). change (inject_Z 1) with 1%Q in *. lra.
    + rewrite Zle_Qle. change (inject_Z 0) with 0%Q. lra.
  - rewrite Qtrunc_nonneg by exact TP. pose proof (Qfloor_le t) as F0. pose proof (Qlt_floor t) as F1. rewrite inject_Z_plus in F1. change (inject_Z 1) with 1%Q in F1.
    set (v := Qfloor t) in *. assert (V0 : 0 <= v). { unfold v. rewrite <- (Qfloor_Z 0). now apply Qfloor_resp_le. }
    assert (VL : forall lo, (inject_Z lo <= t)%Q -> lo <= v). { intros lo L. unfold v. rewrite <- (Qfloor_Z lo). now apply Qfloor_resp_le. }
    clearbody v. assert (VH : forall hi, (t < inject_Z hi + 1)%Q -> v <= hi).
    { intros hi H. assert (K : (inject_Z v < inject_Z (hi + 1))%Q) by (rewrite inject_Z_plus; change (inject_Z 1) with 1%Q; lra). rewrite <- Zlt_Qlt in K. lia. }
    assert (V1 : v <= 255) by (apply VH; change (inject_Z 255) with 255%Q; lra).
    assert ((0 <=? v) && (v <=? 255) = true) as -> by lia. exists v. split; [reflexivity|]. split; [lia|]. split; [lra|]. split; [lra|].
    intros DS lo hi L H. split; [|apply VH; lra]. destruct (Z.le_gt_cases lo 0); [lia|]. apply VL, LOW; auto; lia.
Qed.

Lemma world_zero m i : start m = (0, 0) -> in_range (size m) i -> world_index m i = i.
Proof.
  intros S [A B]. unfold world_index. rewrite S. cbn [fst snd]. rewrite !Z.sub_0_r, !Z.mod_small by lia.
  symmetry. apply surjective_pairing.
Qed.

Lemma centre1_step L c r k d : (centre1 L c r (k + d) == centre1 L c r k - inject_Z d * r)%Q.
Proof. unfold centre1. rewrite inject_Z_plus. ring. Qed.

(** Fraction of the way from the cell's centre to its neighbour on the position's side. *)
Lemma frac_range r c x x0 x1 d : (0 < r)%Q -> contains1 r c x -> (x0 == c)%Q -> (x1 == c - inject_Z d * r)%Q ->
  ((c <= x)%Q /\ d = -1) \/ ((x < c)%Q /\ d = 1) ->
  ~ (x0 == x1)%Q /\ (0 <= (x - x0) / (x1 - x0) /\ (x - x0) / (x1 - x0) <= 1)%Q.
Proof.
  intros Hr [A B] E0 E1 D. assert (r / 2 + r / 2 == r)%Q by field.
  destruct D as [[D ->]|[D ->]].
  - change (inject_Z (-1)) with (-(1))%Q in E1. split; [intros K; lra|].
    assert (((x - x0) / (x1 - x0) == (x - c) / r))%Q as ->.
    { rewrite E0, E1. field; repeat split; intros KK; lra. }
    split; [apply Qle_shift_div_l; lra|apply Qle_shift_div_r; lra].
  - change (inject_Z 1) with 1%Q in E1. split; [intros K; lra|].
    assert (((x - x0) / (x1 - x0) == (c - x) / r))%Q as ->.
    { rewrite E0, E1. field; repeat split; intros KK; lra. }
    split; [apply Qle_shift_div_l; lra|apply Qle_shift_div_r; lra].
Qed.

Definition side (c x : Q) : Z := if Qle_bool c x then -1 else 1.

Lemma side_cases c x : ((c <= x)%Q /\ side c x = -1) \/ ((x < c)%Q /\ side c x = 1).
Proof.
  unfold side. destruct (Qle_bool c x) eqn:K; [apply Qle_bool_iff in K|apply Qle_bool_false in K]; auto.
Qed.

Lemma side_comp c c' x : (c == c')%Q -> side c x = side c' x.
Proof. intros H. unfold side. now rewrite H. Qed.


(** ** The run *)

Definition square (i : idx) (dx dy : Z) : list idx := [i; (fst i + dx, snd i); (fst i, snd i + dy); (fst i + dx, snd i + dy)].

Lemma axis_positions {E : Env} m : in_range (size m) (start m) ->
  exists f g, forall i, in_range (size m) i -> getPosition m i = Some (f (fst i), g (snd i)).
Proof.
  intros S. exists (fun k => position1 ((k - fst (start m)) mod fst (size m)) (fst (len m)) (fst (pos m)) (resn m)),
    (fun k => position1 ((k - snd (start m)) mod snd (size m)) (snd (len m)) (snd (pos m)) (resn m)).
  intros i Hi. unfold getPosition, position_from_index. rewrite (proj2 (index_in_range_iff _ _)) by auto. now rewrite unwrap_index_mod by auto.
Qed.

Lemma interp_core {E : Env} lin m l p i f g : (forall i, in_range (size m) i -> getPosition m i = Some (f (fst i), g (snd i))) ->
  reg_ok m -> has_layer m l -> in_range (size m) i -> getIndex m p = (true, i) ->
  let dx := side (f (fst i)) (fst p) in let dy := side (g (snd i)) (snd p) in
  (Forall (in_range (size m)) (square i dx dy) ->
   exists v0 v1 v2 v3, value_at m l i v0 /\ value_at m l (fst i + dx, snd i) v1 /\ value_at m l (fst i, snd i + dy) v2 /\ value_at m l (fst i + dx, snd i + dy) v3 /\
     atPosition_interp lin m l p INTER_LINEAR = to_uchar (rnd32 (lin [(f (fst i), g (snd i)); (f (fst i + dx), g (snd i)); (f (fst i), g (snd i + dy)); (f (fst i + dx), g (snd i + dy))] [v0; v1; v2; v3] p))) /\
  (~ Forall (in_range (size m)) (square i dx dy) -> exists v, atPosition_interp lin m l p INTER_LINEAR = Ok v /\ value_at m l i v).
Proof.
  intros P R L Hi GI dx dy. destruct (reg_value _ _ _ R L Hi) as [v0 Hv0].
  assert (HN : atPosition m l p = Ok v0). { unfold atPosition. rewrite GI. now apply at_value. }
  assert (Dx : (if Qle_bool (f (fst i)) (fst p) then (fst i - 1, snd i) else (fst i + 1, snd i)) = (fst i + dx, snd i)).
  { unfold dx, side. destruct (Qle_bool (f (fst i)) (fst p)); f_equal; lia. }
  assert (Dy : (if Qle_bool (g (snd i)) (snd p) then (fst i, snd i - 1) else (fst i, snd i + 1)) = (fst i, snd i + dy)).
  { unfold dy, side. destruct (Qle_bool (g (snd i)) (snd p)); f_equal; lia. }
  assert (SQ : Forall (in_range (size m)) (square i dx dy) <-> 0 <= fst i + dx < fst (size m) /\ 0 <= snd i + dy < snd (size m)).
  { unfold square. rewrite !Forall_cons_iff. unfold in_range in *. cbn [fst snd]. intuition. }
  unfold atPosition_interp, interpolated. rewrite GI. cbn [snd]. rewrite (P i Hi). cbn [fst snd]. rewrite Dx, Dy. rewrite SQ. split.
  - intros FS. assert (I1 : in_range (size m) (fst i + dx, snd i)) by (unfold in_range in *; cbn; lia).
    assert (I2 : in_range (size m) (fst i, snd i + dy)) by (unfold in_range in *; cbn; lia).
    assert (I3 : in_range (size m) (fst i + dx, snd i + dy)) by (unfold in_range in *; cbn; lia).
    destruct (reg_value _ _ _ R L I1) as [v1 Hv1]. destruct (reg_value _ _ _ R L I2) as [v2 Hv2]. destruct (reg_value _ _ _ R L I3) as [v3 Hv3].
    exists v0, v1, v2, v3. do 4 (split; [assumption|]). rewrite (P _ I1), (P _ I2). cbn [fst snd]. rewrite (P _ I3). cbn [fst snd].
    rewrite (proj2 (at_value m l i v0) Hv0), (proj2 (at_value m l _ v1) Hv1), (proj2 (at_value m l _ v2) Hv2), (proj2 (at_value m l _ v3) Hv3). reflexivity.
  - intros N. exists v0. split; [|exact Hv0].
    destruct (index_in_range (fst i + dx, snd i) (size m)) eqn:I1.
    + apply index_in_range_iff in I1. rewrite (P _ I1).
      assert (getPosition m (fst i, snd i + dy) = None) as ->; [|exact HN]. apply getPosition_None. unfold in_range in *. cbn [fst snd] in *. lia.
    + assert (getPosition m (fst i + dx, snd i) = None) as ->; [|exact HN]. apply getPosition_None. intros K. apply index_in_range_iff in K. congruence.
Qed.

(** The cost for a rectangle whose corners the computation gets. *)
Lemma interp_cost lin r C d x0 x1 y0 y2 v0 v1 v2 v3 p : (0 < r)%Q -> accurate lin r C d -> (0 <= d)%Q -> (d <= 1#4)%Q ->
  (Qabs x0 <= C)%Q -> (Qabs x1 <= C)%Q -> (Qabs y0 <= C)%Q -> (Qabs y2 <= C)%Q -> (r / 2 <= Qabs (x1 - x0))%Q -> (r / 2 <= Qabs (y2 - y0))%Q ->
  let tx := ((fst p - x0) / (x1 - x0))%Q in let ty := ((snd p - y0) / (y2 - y0))%Q in
  (0 <= tx)%Q -> (tx <= 1)%Q -> (0 <= ty)%Q -> (ty <= 1)%Q -> Forall (fun b => 0 <= b <= 255) [v0; v1; v2; v3] ->
  let B := bilinear x0 x1 y0 y2 (inject_Z v0) (inject_Z v1) (inject_Z v2) (inject_Z v3) p in
  exists v, to_uchar (rnd32 (lin [(x0, y0); (x1, y0); (x0, y2); (x1, y2)] [v0; v1; v2; v3] p)) = Ok v /\ 0 <= v <= 255 /\
    (inject_Z v <= B + d + (1 # 65536))%Q /\ (B - d - (1 # 65536) < inject_Z v + 1)%Q /\
    ((d <= 1 # 67108864)%Q -> (forall lo hi, (forall b, In b [v0; v1; v2; v3] -> lo <= b <= hi) -> lo <= v <= hi) /\
       (forall w, (B == inject_Z w)%Q -> v = w)).
Proof.
  intros Hr A D0 D1 X0 X1 Y0 Y2 SX SY tx ty T0 T1 T2 T3 BS B.
  assert (BND : forall lo hi, (forall b, In b [v0; v1; v2; v3] -> lo <= b <= hi) -> (inject_Z lo <= B /\ B <= inject_Z hi)%Q).
  { intros lo hi H. apply bilinear_bounds; auto. intros b Hb.
    assert (exists w, b = inject_Z w /\ In w [v0; v1; v2; v3]) as (w & -> & Hw).
    { destruct Hb as [<-|[<-|[<-|[<-|[]]]]]; [exists v0|exists v1|exists v2|exists v3]; cbn; auto 6. }
    rewrite <- !Zle_Qle. auto. }
  destruct (BND 0 255) as [B0 B1]. { intros b Hb. rewrite Forall_forall in BS. auto. }
  destruct (cast_float (lin [(x0, y0); (x1, y0); (x0, y2); (x1, y2)] [v0; v1; v2; v3] p) B d D0 D1) as (v & F & V & U & L & SM); auto.
  { apply A; auto. }
  exists v. split; [exact F|]. split; [exact V|]. split; [exact U|]. split; [exact L|]. intros DS. specialize (SM DS). split.
  - intros lo hi H. destruct (BND lo hi H). now apply SM.
  - intros w Hw. destruct (SM w w); try (rewrite Hw; apply Qle_refl). lia.
Qed.

(** ** The surrounding square *)

Lemma frac_close r t c0 c1 x0 x1 x : (0 < r)%Q -> (0 <= t)%Q -> (t <= 1 # 8)%Q -> (Qabs (x0 - c0) <= t * r)%Q -> (Qabs (x1 - c1) <= t * r)%Q ->
  (Qabs (x - c0) <= r / 2 + t * r)%Q -> let d := side x0 x in (c1 == c0 - inject_Z d * r)%Q ->
  let u := ((x - c0) / (c1 - c0))%Q in let u' := ((x - x0) / (x1 - x0))%Q in
  ~ (c0 == c1)%Q /\ (0 <= u' /\ u' <= 1 /\ Qabs (u - u') <= 3 * t /\ r / 2 <= Qabs (x1 - x0))%Q.
Proof.
  intros Hr T0 T1 A0 A1 A. apply Qabs_Qle_condition in A0 as [A00 A01]. apply Qabs_Qle_condition in A1 as [A10 A11]. apply Qabs_Qle_condition in A as [AA AB].
  assert (HH : (r / 2 == (1 # 2) * r)%Q) by field. rewrite HH in *.
  assert (TR : (t * r <= (1 # 8) * r)%Q) by (apply Qmult_le_compat_r; lra). assert (TR0 : (0 <= t * r)%Q) by (apply Qmult_le_0_compat; lra).
  set (b := (t * r)%Q) in *.
  intros d. destruct (side_cases x0 x) as [[S D]|[S D]]; fold d in D; rewrite D; [change (inject_Z (-1)) with (-(1))%Q|change (inject_Z 1) with 1%Q]; intros C1 u u'.
  - assert (DP : (0 < x1 - x0)%Q) by lra. assert (E' : (u' * (x1 - x0) == x - x0)%Q) by (unfold u'; field; intros KK; lra).
    assert (E : (u * r == x - c0)%Q) by (unfold u; rewrite C1; field; repeat split; intros KK; lra).
    assert (P0 : (0 <= u')%Q) by (unfold u'; apply Qle_shift_div_l; lra). assert (P1 : (u' <= 1)%Q) by (unfold u'; apply Qle_shift_div_r; lra).
    split; [intros K; lra|]. split; [exact P0|]. split; [exact P1|]. split; [|rewrite HH, Qabs_pos; lra].
    assert (F : ((u - u') * r == (x0 - c0) + u' * ((x1 - x0) - r))%Q). { rewrite <- (Qplus_0_r (_ + _)). setoid_replace ((u - u') * r)%Q with (u * r - u' * r)%Q by ring. rewrite E.
      setoid_replace (u' * (x1 - x0 - r))%Q with (u' * (x1 - x0) - u' * r)%Q by ring. rewrite E'. ring. }
    clearbody u u'. set (w := (x1 - x0 - r)%Q) in *. assert (W0 : (- (2 * b) <= w)%Q) by (unfold w; lra). assert (W1 : (w <= 2 * b)%Q) by (unfold w; lra).
    apply Qabs_Qle_condition. split; apply (Qmult_le_r _ _ r Hr); rewrite F; clearbody w; [|]; unfold b in *; nra.
  - assert (DP : (x1 - x0 < 0)%Q) by lra. assert (E' : (u' * (x1 - x0) == x - x0)%Q) by (unfold u'; field; intros KK; lra).
    assert (E : (u * r == c0 - x)%Q) by (unfold u; rewrite C1; field; repeat split; intros KK; lra).
    assert (UQ : (u' == (x0 - x) / (x0 - x1))%Q) by (unfold u'; field; repeat split; intros KK; lra).
    assert (P0 : (0 <= u')%Q) by (rewrite UQ; apply Qle_shift_div_l; lra). assert (P1 : (u' <= 1)%Q) by (rewrite UQ; apply Qle_shift_div_r; lra).
    split; [intros K; lra|]. split; [exact P0|]. split; [exact P1|]. split; [|rewrite HH, Qabs_neg; lra].
    assert (F : ((u - u') * r == (c0 - x0) - u' * ((x1 - x0) + r))%Q). { setoid_replace ((u - u') * r)%Q with (u * r - u' * r)%Q by ring. rewrite E.
      setoid_replace (u' * (x1 - x0 + r))%Q with (u' * (x1 - x0) + u' * r)%Q by ring. rewrite E'. ring. }
    clearbody u u'. set (w := (x1 - x0 + r)%Q) in *. assert (W0 : (- (2 * b) <= w)%Q) by (unfold w; lra). assert (W1 : (w <= 2 * b)%Q) by (unfold w; lra).
    apply Qabs_Qle_condition. split; apply (Qmult_le_r _ _ r Hr); rewrite F; clearbody w; [|]; unfold b in *; nra.
Qed.

Lemma mix_diff e a b s : (Qabs (a - b) <= e)%Q -> (0 <= s)%Q -> (s <= 1)%Q -> forall c d, (Qabs (c - d) <= e)%Q ->
  (Qabs ((1 - s) * (a - b) + s * (c - d)) <= e)%Q.
Proof.
  intros A S0 S1 c d C. apply Qabs_Qle_condition in A as [A0 A1]. apply Qabs_Qle_condition in C as [C0 C1].
  set (p := (a - b)%Q) in *. set (q := (c - d)%Q) in *. clearbody p q. apply Qabs_Qle_condition. split; nra.
Qed.

(** The interpolated value moves little with the fractions. *)
Lemma mix_close t u u' w w' b0 b1 b2 b3 : (0 <= t)%Q -> (t <= 1 # 8)%Q -> (0 <= u')%Q -> (u' <= 1)%Q -> (0 <= w')%Q -> (w' <= 1)%Q ->
  (Qabs (u - u') <= 3 * t)%Q -> (Qabs (w - w') <= 3 * t)%Q -> (forall b, In b [b0; b1; b2; b3] -> 0 <= b /\ b <= 255)%Q ->
  (Qabs ((b0 * (1 - u') * (1 - w') + b1 * u' * (1 - w') + b2 * (1 - u') * w' + b3 * u' * w') -
         (b0 * (1 - u) * (1 - w) + b1 * u * (1 - w) + b2 * (1 - u) * w + b3 * u * w)) <= 2295 * t)%Q.
Proof.
  intros T0 T1 U0 U1 W0 W1 DU DW HB.
  destruct (HB b0) as [a0 a1]; [cbn; auto|]. destruct (HB b1) as [c0 c1]; [cbn; auto|]. destruct (HB b2) as [e0 e1]; [cbn; auto|]. destruct (HB b3) as [f0 f1]; [cbn; auto 6|]. clear HB.
  set (k := ((1 - w') * (b1 - b0) + w' * (b3 - b2))%Q).
  set (h := ((1 - u) * (b2 - b0) + u * (b3 - b1))%Q).
  setoid_replace ((b0 * (1 - u') * (1 - w') + b1 * u' * (1 - w') + b2 * (1 - u') * w' + b3 * u' * w') - (b0 * (1 - u) * (1 - w) + b1 * u * (1 - w) + b2 * (1 - u) * w + b3 * u * w))%Q
    with ((u' - u) * k + (w' - w) * h)%Q by (unfold k, h; ring).
  assert (K : (Qabs k <= 255)%Q). { apply mix_diff; auto; apply Qabs_Qle_condition; split; lra. }
  assert (H : (Qabs h <= 510)%Q).
  { apply Qabs_Qle_condition in DU as [DU0 DU1]. assert (UL : (-(3#8) <= u)%Q) by lra. assert (UH : (u <= 1 + (3#8))%Q) by lra. unfold h.
    set (p := (b2 - b0)%Q). set (q := (b3 - b1)%Q). assert (P0 : (-(255) <= p)%Q) by (unfold p; lra). assert (P1 : (p <= 255)%Q) by (unfold p; lra).
    assert (Q0 : (-(255) <= q)%Q) by (unfold q; lra). assert (Q1 : (q <= 255)%Q) by (unfold q; lra). clearbody p q.
    apply Qabs_Qle_condition. split; nra. }
  eapply Qle_trans; [apply Qabs_triangle|]. rewrite !Qabs_Qmult.
  assert (A1 : (Qabs (u' - u) <= 3 * t)%Q) by (rewrite Qabs_Qminus; exact DU). assert (A2 : (Qabs (w' - w) <= 3 * t)%Q) by (rewrite Qabs_Qminus; exact DW).
  assert (M : forall x y X Y : Q, (0 <= x)%Q -> (x <= X)%Q -> (0 <= y)%Q -> (y <= Y)%Q -> (x * y <= X * Y)%Q) by (intros; nra).
  pose proof (M _ _ _ _ (Qabs_nonneg _) A1 (Qabs_nonneg _) K). pose proof (M _ _ _ _ (Qabs_nonneg _) A2 (Qabs_nonneg _) H). lra.
Qed.

(** The positions computed for the centres being off by at most [t] cells. *)
Lemma interp_tol {E : Env} lin d t C m l p i f g :
  (forall i, in_range (size m) i -> getPosition m i = Some (f (fst i), g (snd i))) ->
  (0 < resn m)%Q -> (0 <= t)%Q -> (t <= 1 # 8)%Q -> (0 <= d)%Q -> (d <= 1 # 4)%Q -> accurate lin (resn m) C d ->
  reg_ok m -> has_layer m l -> costs_ok m l -> start m = (0, 0) ->
  (forall j, in_range (size m) j -> Qabs (f (fst j) - fst (centre m j)) <= t * resn m /\ Qabs (g (snd j) - snd (centre m j)) <= t * resn m /\
     Qabs (f (fst j)) <= C /\ Qabs (g (snd j)) <= C)%Q ->
  in_range (size m) i -> getIndex m p = (true, i) -> (Qabs (fst p - fst (centre m i)) <= resn m / 2 + t * resn m)%Q -> (Qabs (snd p - snd (centre m i)) <= resn m / 2 + t * resn m)%Q ->
  let dx := side (f (fst i)) (fst p) in let dy := side (g (snd i)) (snd p) in
  let e := (d + (1 # 65536) + 2295 * t)%Q in
  (Forall (in_range (size m)) (square i dx dy) ->
   exists a b c k v, atPosition_interp lin m l p INTER_LINEAR = Ok v /\
     (forall j, In j (square i dx dy) -> exists w, value_at m l j w /\
        (a + b * fst (centre m j) + c * snd (centre m j) + k * fst (centre m j) * snd (centre m j) == inject_Z w)%Q) /\
     (let B := a + b * fst p + c * snd p + k * fst p * snd p in inject_Z v <= B + e /\ B - e < inject_Z v + 1)%Q /\
     ((d <= 1 # 67108864)%Q ->
        (forall lo hi, (forall j w, In j (square i dx dy) -> value_at m l j w -> lo <= w <= hi) -> lo <= v <= hi) /\
        ((fst p == f (fst i))%Q -> (snd p == g (snd i))%Q -> value_at m l i v))) /\
  (~ Forall (in_range (size m)) (square i dx dy) ->
   exists v, atPosition_interp lin m l p INTER_LINEAR = Ok v /\ value_at m l i v).
Proof.
  intros P Hr T0 T1 D0 D1 AC R L CO S CL Hi GI PX PY dx dy e.
  destruct (interp_core lin m l p i f g P R L Hi GI) as [YES NO]. fold dx dy in YES, NO. split; [|exact NO]. intros FS.
  destruct (YES FS) as (v0 & v1 & v2 & v3 & H0 & H1 & H2 & H3 & RUN). clear YES NO.
  assert (FS' := FS). unfold square in FS'. rewrite !Forall_cons_iff in FS'. destruct FS' as (_ & I1 & I2 & I3 & _).
  set (i1 := (fst i + dx, snd i)) in *. set (i2 := (fst i, snd i + dy)) in *. set (i3 := (fst i + dx, snd i + dy)) in *.
  assert (C1x : (fst (centre m i1) == fst (centre m i) - inject_Z dx * resn m)%Q).
  { unfold centre; cbn [fst]. rewrite !world_zero by auto. apply centre1_step. }
  assert (C2y : (snd (centre m i2) == snd (centre m i) - inject_Z dy * resn m)%Q).
  { unfold centre; cbn [snd]. rewrite !world_zero by auto. apply centre1_step. }
  assert (C1y : (snd (centre m i1) == snd (centre m i))%Q) by (unfold centre; cbn [snd]; rewrite !world_zero by auto; reflexivity).
  assert (C2x : (fst (centre m i2) == fst (centre m i))%Q) by (unfold centre; cbn [fst]; rewrite !world_zero by auto; reflexivity).
  assert (C3x : (fst (centre m i3) == fst (centre m i1))%Q) by (unfold centre; cbn [fst]; rewrite !world_zero by auto; reflexivity).
  assert (C3y : (snd (centre m i3) == snd (centre m i2))%Q) by (unfold centre; cbn [snd]; rewrite !world_zero by auto; reflexivity).
  destruct (CL i Hi) as (A0 & A0' & F0 & G0). destruct (CL i1 I1) as (A1 & _ & F1 & _). destruct (CL i2 I2) as (_ & A2 & _ & G2).
  change (fst i1) with (fst i + dx) in A1, F1. change (snd i2) with (snd i + dy) in A2, G2.
  destruct (frac_close (resn m) t _ _ _ _ (fst p) Hr T0 T1 A0 A1 PX C1x) as (NX & U0 & U1 & DU & SX).
  destruct (frac_close (resn m) t _ _ _ _ (snd p) Hr T0 T1 A0' A2 PY C2y) as (NY & W0 & W1 & DW & SY).
  assert (BS : Forall (fun b => 0 <= b <= 255) [v0; v1; v2; v3]).
  { repeat constructor; try (eapply CO; eassumption). }
  destruct (interp_cost lin (resn m) C d _ _ _ _ v0 v1 v2 v3 p Hr AC D0 D1 F0 F1 G0 G2 SX SY U0 U1 W0 W1 BS) as (v & V & _ & VU & VL & VS).
  destruct (bilinear_poly (fst (centre m i)) (fst (centre m i1)) (snd (centre m i)) (snd (centre m i2)) (inject_Z v0) (inject_Z v1) (inject_Z v2) (inject_Z v3) NX NY)
    as (a & b & c & k & HP & Q0 & Q1 & Q2 & Q3).
  exists a, b, c, k, v. split; [now rewrite RUN|]. split; [|split].
  - intros j Hj. unfold square in Hj. destruct Hj as [<-|[<-|[<-|[<-|[]]]]].
    + exists v0. auto.
    + exists v1. split; [assumption|]. fold i1. rewrite C1y. exact Q1.
    + exists v2. split; [assumption|]. fold i2. rewrite C2x. exact Q2.
    + exists v3. split; [assumption|]. fold i3. rewrite C3x, C3y. exact Q3.
  - assert (MC : (Qabs (bilinear (f (fst i)) (f (fst i + dx)%Z) (g (snd i)) (g (snd i + dy)%Z) (inject_Z v0) (inject_Z v1) (inject_Z v2) (inject_Z v3) p -
                        bilinear (fst (centre m i)) (fst (centre m i1)) (snd (centre m i)) (snd (centre m i2)) (inject_Z v0) (inject_Z v1) (inject_Z v2) (inject_Z v3) p) <= 2295 * t)%Q).
    { apply mix_close; auto. intros q Hq. assert (exists z, q = inject_Z z /\ In z [v0; v1; v2; v3]) as (z & -> & Hz).
      { destruct Hq as [<-|[<-|[<-|[<-|[]]]]]; [exists v0|exists v1|exists v2|exists v3]; cbn; auto 6. }
      rewrite Forall_forall in BS. apply BS in Hz. change 0%Q with (inject_Z 0). change 255%Q with (inject_Z 255). now rewrite <- !Zle_Qle. }
    rewrite (HP p) in MC. apply Qabs_Qle_condition in MC as [M0 M1]. intros B. fold B in M0, M1.
    set (B' := bilinear _ _ _ _ _ _ _ _ _) in *. clearbody B B'. unfold e. clear - VU VL M0 M1. split; lra.
  - intros DS. destruct (VS DS) as [VB VC]. split.
    + intros lo hi Hb. apply VB. intros q Hq. assert (exists j, In j (square i dx dy) /\ value_at m l j q) as (j & Hj & Hw); [|eauto].
      unfold square. destruct Hq as [<-|[<-|[<-|[<-|[]]]]]; [exists i|exists i1|exists i2|exists i3]; cbn; auto 6.
    + intros EX EY. rewrite (VC v0); auto. unfold bilinear. cbv zeta.
      setoid_replace (fst p - f (fst i))%Q with 0%Q by (rewrite EX; ring). setoid_replace (snd p - g (snd i))%Q with 0%Q by (rewrite EY; ring).
      setoid_replace (0 / (f (fst i + dx)%Z - f (fst i)))%Q with 0%Q by (unfold Qdiv; ring). setoid_replace (0 / (g (snd i + dy)%Z - g (snd i)))%Q with 0%Q by (unfold Qdiv; ring). ring.
Qed.

(** ** Exact geometry *)

Section Interp.
Context {E : Env} (X : Exact E).

Lemma interp_inside lin d C m l p i : (0 <= d)%Q -> (d <= 1#4)%Q -> accurate lin (resn m) C d ->
  (forall q, inside m q -> Qabs (fst q) <= C /\ Qabs (snd q) <= C)%Q ->
  geo_ok m -> reg_ok m -> has_layer m l -> costs_ok m l -> start m = (0, 0) ->
  in_range (size m) i -> contains (resn m) (centre m i) p ->
  let dx := if Qle_bool (fst (centre m i)) (fst p) then -1 else 1 in
  let dy := if Qle_bool (snd (centre m i)) (snd p) then -1 else 1 in
  let square := [i; (fst i + dx, snd i); (fst i, snd i + dy); (fst i + dx, snd i + dy)] in
  let e := (d + (1 # 65536))%Q in
  (Forall (in_range (size m)) square ->
   exists a b c k v, atPosition_interp lin m l p INTER_LINEAR = Ok v /\
     (forall j, In j square -> exists w, value_at m l j w /\
        (a + b * fst (centre m j) + c * snd (centre m j) + k * fst (centre m j) * snd (centre m j) == inject_Z w)%Q) /\
     (let B := a + b * fst p + c * snd p + k * fst p * snd p in inject_Z v <= B + e /\ B - e < inject_Z v + 1)%Q /\
     ((d <= 1 # 67108864)%Q ->
        (forall lo hi, (forall j w, In j square -> value_at m l j w -> lo <= w <= hi) -> lo <= v <= hi) /\
        (veq p (centre m i) -> value_at m l i v))) /\
  (~ Forall (in_range (size m)) square ->
   exists v, atPosition_interp lin m l p INTER_LINEAR = Ok v /\ value_at m l i v).
Proof.
  intros D0 D1 AC BD G R L CO S Hi Hc dx dy square0 e.
  destruct (axis_positions m) as (f & g & P). { apply G. }
  assert (FG : forall j, in_range (size m) j -> (f (fst j) == fst (centre m j))%Q /\ (g (snd j) == snd (centre m j))%Q).
  { intros j Hj. destruct (getPosition_centre X m j G Hj) as (q & Hq & [V0 V1]). rewrite (P j Hj) in Hq. injection Hq as <-. now split. }
  destruct (FG i Hi) as [FI GI].
  assert (DX : dx = side (f (fst i)) (fst p)) by (unfold dx; fold (side (fst (centre m i)) (fst p)); symmetry; now apply side_comp).
  assert (DY : dy = side (g (snd i)) (snd p)) by (unfold dy; fold (side (snd (centre m i)) (snd p)); symmetry; now apply side_comp).
  pose proof (g_res _ G) as Hr. assert (Z0 : (0 * resn m == 0)%Q) by ring.
  assert (CN : forall c x, contains1 (resn m) c x -> (Qabs (x - c) <= resn m / 2 + 0 * resn m)%Q).
  { intros c x [K0 K1]. apply Qabs_Qle_condition. lra. }
  destruct (interp_tol lin d 0 C m l p i f g P Hr) as [A B]; auto; try discriminate.
  - intros j Hj. destruct (FG j Hj) as [FJ GJ]. destruct (BD (centre m j)) as [B0 B1]. { apply (contains_inside m j); auto. unfold contains, contains1. assert (HR2 : (resn m / 2 == (1#2) * resn m)%Q) by field. rewrite HR2. repeat split; lra. }
    rewrite FJ, GJ. split; [|split; [|split; assumption]];
      (apply Qabs_Qle_condition; split; rewrite Z0; lra).
  - now apply (getIndex_covering X m i p).
  - apply CN, Hc.
  - apply CN, Hc.
  - rewrite <- DX, <- DY in A, B. fold square0 in A. change (square i dx dy) with square0 in A, B. split; [|exact B]. intros FS.
    destruct (A FS) as (a & b & c & k & v & H1 & H2 & [H3 H4] & H5). exists a, b, c, k, v. split; [exact H1|]. split; [exact H2|]. split; [unfold e; split; lra|].
    intros DS. destruct (H5 DS) as [H6 H7]. split; [exact H6|]. intros [V0 V1]. apply H7; [now rewrite FI|now rewrite GI].
Qed.

Lemma raw_range p L c r n : (0 < r)%Q -> 0 < n -> (L == inject_Z n * r)%Q ->
  (0 <= raw_index1 p L c r < n <-> (p < c + L / 2 + r /\ c - L / 2 < p)%Q) /\
  ((c + L / 2 < p)%Q -> (p < c + L / 2 + r)%Q -> raw_index1 p L c r = 0).
Proof.
  intros Hr Hn HL.
  assert (Hk : raw_index1 p L c r = Qtrunc ((c + L / 2 - p) / r)).
  { unfold raw_index1. apply Qtrunc_comp. exqX X. rewrite half_eq. field. lra. }
  rewrite Hk. set (q := ((c + L / 2 - p) / r)%Q).
  assert (Q1 : (q < inject_Z n <-> c - L / 2 < p)%Q).
  { unfold q. rewrite Qlt_div_iff by auto. assert (L / 2 + L / 2 == L)%Q by field. split; intros; lra. }
  assert (Q2 : (-(1) < q <-> p < c + L / 2 + r)%Q).
  { unfold q. split; intros K.
    - apply Qmult_lt_r with (z := r) in K; auto.
      assert ((c + L / 2 - p) / r * r == c + L / 2 - p)%Q as E1 by (field; lra). rewrite E1 in K. lra.
    - apply Qlt_shift_div_l; lra. }
  assert (Q3 : (c + L / 2 < p -> q <= 0)%Q).
  { intros K. unfold q. apply Qle_shift_div_r; auto. lra. }
  assert (TR : forall x, (-(1) < x)%Q -> (x <= 0)%Q -> Qtrunc x = 0).
  { intros x K1 K2. assert (x == - (- x))%Q as -> by ring. rewrite Qtrunc_opp, Qtrunc_nonneg by lra.
    rewrite (Qfloor_unique (-x) 0); auto. { change (inject_Z 0) with 0%Q. lra. } change (inject_Z (0+1)) with 1%Q. lra. }
  split.
  - rewrite <- Q1, <- Q2. destruct (Qlt_le_dec q 0) as [K|K].
    + split.
      * intros [A B]. split.
        -- destruct (Qlt_le_dec (-(1)) q); auto. exfalso.
           assert (Qtrunc q <= -1); [|lia].
           assert (q == - (- q))%Q as -> by ring. rewrite Qtrunc_opp, Qtrunc_nonneg by lra.
           assert (1 <= Qfloor (-q)); [|lia]. rewrite <- (Qfloor_Z 1). apply Qfloor_resp_le. change (inject_Z 1) with 1%Q. lra.
        -- apply Qlt_le_trans with 0%Q; auto. apply inject_Z_nonneg. lia.
      * intros [A B]. rewrite TR by lra. lia.
    + rewrite Qtrunc_nonneg by auto. pose proof (Qfloor_le q) as F1. pose proof (Qlt_floor q) as F2. split.
      * intros [A B]. split; [lra|]. apply Qlt_le_trans with (1 := F2). rewrite <- Zle_Qle. lia.
      * intros [A B]. split.
        -- rewrite <- (Qfloor_Z 0). now apply Qfloor_resp_le.
        -- rewrite Zlt_Qlt. lra.
  - intros A B. apply TR; [now apply Q2|auto].
Qed.

Lemma interp_outside lin m l p : geo_ok m -> start m = (0, 0) -> ~ inside m p ->
  ((fst (lower m) < fst p)%Q /\ (fst p < fst (upper m) + resn m)%Q /\
   (snd (lower m) < snd p)%Q /\ (snd p < snd (upper m) + resn m)%Q ->
   atPosition_interp lin m l p INTER_LINEAR = Throw OutOfRange) /\
  (~ ((fst (lower m) < fst p)%Q /\ (fst p < fst (upper m) + resn m)%Q /\
   (snd (lower m) < snd p)%Q /\ (snd p < snd (upper m) + resn m)%Q) ->
   atPosition_interp lin m l p INTER_LINEAR = Fault Uninit).
Proof.
  intros G S NI. pose proof (g_res _ G) as Hr. destruct (g_len _ G) as [L1 L2]; simpl in L1, L2.
  destruct (g_size _ G) as [N1 N2].
  destruct (raw_range (fst p) _ (fst (pos m)) _ _ Hr N1 L1) as [R1 Z1].
  destruct (raw_range (snd p) _ (snd (pos m)) _ _ Hr N2 L2) as [R2 Z2].
  assert (HI : snd (getIndex m p) = (raw_index1 (fst p) (fst (len m)) (fst (pos m)) (resn m), raw_index1 (snd p) (snd (len m)) (snd (pos m)) (resn m))).
  { unfold getIndex, index_from_position, wrap_index. now rewrite S. }
  set (i0 := (raw_index1 (fst p) (fst (len m)) (fst (pos m)) (resn m), raw_index1 (snd p) (snd (len m)) (snd (pos m)) (resn m))) in *.
  unfold atPosition_interp, interpolated. rewrite HI. unfold lower, upper. cbn [fst snd]. split.
  - intros (A & B & C & D).
    assert (I0 : in_range (size m) i0) by (split; unfold i0; cbn [fst snd]; [apply R1|apply R2]; auto).
    assert (HT : atPosition m l p = Throw OutOfRange).
    { unfold atPosition. rewrite (surjective_pairing (getIndex m p)), fst_getIndex.
      destruct (isInside m p) eqn:K; auto. apply (isInside_iff X) in K. contradiction. }
    destruct (getPosition_centre X m i0 G I0) as (p0 & -> & P0x & P0y).
    assert (LT : forall L c k, 0 <= k -> (centre1 L c (resn m) k < c + L / 2)%Q).
    { intros L c k Hk. unfold centre1. assert (0 <= inject_Z k)%Q by now apply inject_Z_nonneg. nra. }
    destruct (Qlt_le_dec (fst (pos m) + fst (len m) / 2) (fst p)) as [K|K].
    { assert (Qle_bool (fst p0) (fst p) = true) as ->.
      { apply Qle_bool_iff. rewrite P0x. apply Qlt_le_weak. eapply Qlt_trans; [|exact K]. apply LT.
        apply (world_in_range m i0 G). }
      rewrite getPosition_None; [exact HT|]. unfold in_range, i0. cbn [fst snd]. rewrite Z1 by auto. lia. }
    destruct (Qlt_le_dec (snd (pos m) + snd (len m) / 2) (snd p)) as [K'|K'].
    { assert (Qle_bool (snd p0) (snd p) = true) as ->.
      { apply Qle_bool_iff. rewrite P0y. apply Qlt_le_weak. eapply Qlt_trans; [|exact K']. apply LT.
        apply (world_in_range m i0 G). }
      match goal with |- context [getPosition m ?j] => destruct (getPosition m j) end; [|exact HT].
      rewrite getPosition_None; [exact HT|]. unfold in_range, i0. cbn [fst snd]. rewrite Z2 by auto. lia. }
    exfalso. apply NI. unfold inside. auto.
  - intros N. rewrite getPosition_None; [reflexivity|]. intros [K1 K2]. unfold i0 in K1, K2. cbn [fst snd] in K1, K2.
    apply R1 in K1. apply R2 in K2. tauto.
Qed.

End Interp.
