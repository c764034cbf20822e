(** Property C76: the demo node `inflations`. *)
From Coq Require Import ZArith QArith Qround Qabs Ascii String List Bool Lia Lqa.
From Verif Require Import Base Mat GridMapMath GridIter CostMap Inflation Converter Bundles Demo Spec ConvertSpec InflationSpec BaseLemmas GeoLemmas CoreProofs CoreProofs2 CoreFinal IterProofs MoveProofs AddDataProofs FloatLemmas FloatMono MessageProofs RegProofs InflateProofs InflateFinal InflateEnv Samples DoubleMap PropGrid PropImage PropBundle PropInflate PropDeflate PropLoad PropDoubleRos.
From Verif Require PropAll.
Import ListNotations.
Open Scope Z_scope.

(** ** Specification *)

Definition example_name : string := "cost_map_ros/example.yaml".

(** The bundle the node finds: a file of that name in the working directory, or
    else the resource that resolves to it. *)
Inductive finds (files : list (string * bundle)) (plugins : list string) : bundle -> Prop :=
| finds_file b : aget files example_name = Some b -> finds files plugins b
| finds_resource f b : aget files example_name = None -> resolveResourceName plugins example_name = Ok f ->
    aget files f = Some b -> finds files plugins b.

(** ** Floats *)

Lemma rne_up p x : 1 <= p -> (0 < x)%Q -> (0 < rne p x)%Q.
Proof. intros P H. destruct (rne_binade p x P H) as [A _]. pose proof (pow2_pos (Qlog2 x)). lra. Qed.

Lemma rne_twice p x : 1 <= p -> (rne p (rne p x) == rne p x)%Q.
Proof.
  intros P. destruct (Qeq_dec x 0) as [Z|NZ]; [rewrite (rne_zero p x Z); now rewrite rne_zero|].
  destruct (rne_spec p x NZ) as (z & R & ER & _). set (u := pow2 (Qlog2 x - (p - 1))) in *.
  destruct (Qlog2_bounds x NZ) as [LB UB].
  assert (UP : (0 < u)%Q) by apply pow2_pos.
  assert (XB : (Qabs (x / u) < inject_Z (2 ^ p))%Q).
  { unfold Qdiv. rewrite Qabs_Qmult, (Qabs_pos (/ u)) by (apply Qlt_le_weak, Qinv_lt_0_compat; auto).
    apply Qlt_shift_div_r; [exact UP|]. rewrite <- pow2_Z by lia. unfold u. rewrite <- pow2_add. replace (p + (Qlog2 x - (p - 1))) with (Qlog2 x + 1) by ring. exact UB. }
  assert (ZB : Z.abs z <= 2 ^ p).
  { apply Qabs_Qle_condition in ER as [E1 E2]. apply Qabs_Qlt_condition in XB as [X1 X2].
    assert (inject_Z (- (2 ^ p) - 1) < inject_Z z)%Q as K1. { unfold Z.sub. rewrite inject_Z_plus, inject_Z_opp. change (inject_Z (-(1))) with (-1)%Q. lra. }
    assert (inject_Z z < inject_Z (2 ^ p + 1))%Q as K2. { rewrite inject_Z_plus. change (inject_Z 1) with 1%Q. lra. }
    rewrite <- Zlt_Qlt in K1, K2. lia. }
  destruct (Z.eq_dec (Z.abs z) (2 ^ p)) as [EQ|NE].
  - apply (rne_dyadic p _ (Z.sgn z) (Qlog2 x + 1)); auto.
    + assert (2 <= 2 ^ p) by (replace p with (Z.succ (p - 1)) by lia; rewrite Z.pow_succ_r by lia; assert (0 < 2 ^ (p - 1)) by (apply Z.pow_pos_nonneg; lia); lia). lia.
    + rewrite R. replace z with (Z.sgn z * 2 ^ p) at 1 by (rewrite <- EQ; lia). rewrite inject_Z_mult, <- pow2_Z by lia.
      replace (Qlog2 x + 1) with (p + (Qlog2 x - (p - 1))) by ring. rewrite pow2_add. unfold u. ring.
  - apply (rne_dyadic p _ z (Qlog2 x - (p - 1))); auto. lia.
Qed.

(** ** The costs *)

Section Costs.
Context {E : Env} (X : real_or_double E) (h : Z -> Z -> Q) (H : hypot_approx h) (ex : Q -> Q) (EX : exp_like ex).
Let F := FEnv (rne 24) (fun a b => rne 24 (h a b)).

Lemma demo_rounding : rounding rnd /\ rounding (f32 F).
Proof.
  split; [|apply (proj1 C44_rounding 24); lia]. destruct X as [X'|[p ->]]; [now apply (proj2 C44_rounding)|apply (proj1 C44_rounding 53); lia].
Qed.

Lemma demo_costs d : (0 <= d)%Q -> ros_cost F ex demo_inscribed demo_rate d = Ok (demo_computer F ex d) /\
  ((d == 0)%Q -> demo_computer F ex d = lethal) /\
  ((0 < d)%Q -> (d <= demo_inscribed)%Q -> demo_computer F ex d = inscribed) /\
  ((0 < d)%Q -> 0 <= demo_computer F ex d <= inscribed).
Proof.
  intros Hd. destruct demo_rounding as [RE RF].
  destruct (C44_curve E F ex RE RF EX demo_inscribed demo_rate d) as (v & RV & V0 & V1 & V2 & _); [discriminate|exact Hd|].
  unfold demo_computer. rewrite RV. split; [reflexivity|]. split; [exact V0|]. split; [exact V1|].
  intros P. destruct (Qlt_le_dec demo_inscribed d) as [L|L]; [specialize (V2 P L); lia|]. rewrite (V1 P L). unfold inscribed. lia.
Qed.

Lemma hypot_pos a b : 0 <= a -> 0 <= b -> (a, b) <> (0, 0) -> (0 < h a b)%Q.
Proof.
  intros A B N. destruct (H a b A B) as (H0 & H1 & _). destruct (Qlt_le_dec 0 (h a b)) as [K|K]; [exact K|exfalso].
  assert (Z : (h a b == 0)%Q) by lra. rewrite Z in H1. assert (1 <= a * a + b * b). { assert (a <> 0 \/ b <> 0) by (destruct (Z.eq_dec a 0), (Z.eq_dec b 0); subst; auto; congruence). nia. }
  assert ((1 <= inject_Z (a * a + b * b))%Q) by (change 1%Q with (inject_Z 1); now rewrite <- Zle_Qle).
  set (n := inject_Z (a * a + b * b)) in *. clearbody n. assert (0 < (1 - heps) * (1 - heps))%Q as P by reflexivity. set (c := ((1 - heps) * (1 - heps))%Q) in *. clearbody c. nra.
Qed.

(** Costs around an obstacle. *)
Lemma demo_table q a b : (0 < q)%Q -> 0 <= a -> 0 <= b ->
  let c := cost_table F q (demo_computer F ex) a b in
  0 <= c <= lethal /\ ((a, b) <> (0, 0) -> c <= inscribed) /\
  (forall k, 0 <= k <= 2048 -> a <= k -> b <= k -> a * a + b * b <= k * k -> (rne 24 q * inject_Z k <= 3#10)%Q -> inscribed <= c).
Proof.
  intros Q A B. unfold cost_table. cbn [f32 hyp F]. assert (QP : (0 < rne 24 q)%Q) by (apply rne_up; [lia|exact Q]).
  destruct (H a b A B) as (H0 & _ & _). assert (HP : (0 <= rne 24 (h a b))%Q) by (apply rne_pos; [lia|exact H0]).
  set (x := (rne 24 q * rne 24 (h a b))%Q). assert (XP : (0 <= x)%Q) by (apply Qmult_le_0_compat; lra).
  destruct (demo_costs (rne 24 x)) as (_ & C0 & C1 & C2); [apply rne_pos; [lia|exact XP]|].
  assert (P : (0 <= rne 24 x)%Q) by (apply rne_pos; [lia|exact XP]).
  cbv zeta. set (c := demo_computer F ex (rne 24 x)) in *.
  destruct (Qlt_le_dec 0 (rne 24 x)) as [D|D].
  - specialize (C2 D). split; [unfold lethal, inscribed in *; lia|]. split; [lia|].
    intros k Hk AK BK D2 NK. rewrite C1; [lia|exact D|]. unfold demo_inscribed, rnd32. apply rne_mono; [lia|].
    apply Qle_trans with (rne 24 q * inject_Z k)%Q; [|exact NK]. unfold x. rewrite !(Qmult_comm (rne 24 q)). apply Qmult_le_compat_r; [|lra].
    apply (hypot_dist_ok h k H); lia.
  - assert (Z : (rne 24 x == 0)%Q) by lra. rewrite (C0 Z). split; [unfold lethal; lia|]. split; [|unfold inscribed, lethal; lia].
    intros N. exfalso. pose proof (hypot_pos a b A B N) as HH. assert (0 < rne 24 (h a b))%Q by (apply rne_up; [lia|exact HH]).
    assert (0 < x)%Q by (apply Qmult_lt_0_compat; auto). pose proof (rne_up 24 x ltac:(lia) H2). lra.
Qed.
End Costs.

(** ** C76 *)

(** The computer of the demo never fails. *)
Theorem C76_costs : forall (E : Env) h ex, real_or_double E -> exp_like ex -> forall d, (0 <= d)%Q ->
  let F := FEnv (rne 24) h in exists v, ros_cost F ex demo_inscribed demo_rate d = Ok v /\ demo_computer F ex d = v /\ 0 <= v <= lethal.
Proof.
  intros E h ex X EX d Hd F. destruct (demo_rounding X h) as [RE RF].
  destruct (C44_curve E F ex RE RF EX demo_inscribed demo_rate d) as (v & RV & V0 & V1 & V2 & _); [discriminate|exact Hd|].
  exists v. split; [exact RV|]. unfold demo_computer. rewrite RV. split; [reflexivity|].
  destruct (Qlt_le_dec 0 d) as [P|P]; [|rewrite V0 by lra; unfold lethal; lia].
  destruct (Qlt_le_dec demo_inscribed d) as [L|L]; [specialize (V2 P L); unfold inscribed, lethal in *; lia|]. rewrite (V1 P L). unfold inscribed, lethal. lia.
Qed.
Print Assumptions C76_costs.

Lemma shows_byte (C : Cv) (R : gray_range C) n fo i v : (forall p, fo = Some p -> png_ok p) -> shows n fo i v -> 0 <= v <= 255.
Proof.
  intros PO S. destruct S as [i|p i N|p i q N K]; [unfold unknown; lia|unfold unknown; lia|].
  destruct (PO p eq_refl) as (CH & _ & PX). apply nth_error_In in K. specialize (PX q K).
  assert (HE : In (if (f_channels p =? 4)%Z then "bgra8" else if (f_channels p =? 3)%Z then "bgr8" else "mono8")%string (eight_bit ++ sixteen_bit)).
  { destruct (f_channels p =? 4), (f_channels p =? 3); cbn; auto. }
  refine (PropAll.pixel_byte R _ q _ HE). assert (smem (if (f_channels p =? 4)%Z then "bgra8" else if (f_channels p =? 3)%Z then "bgr8" else "mono8")%string eight_bit = true) as ->; [|exact PX].
  destruct (f_channels p =? 4), (f_channels p =? 3); reflexivity.
Qed.

Lemma shown (E : Env) m l : in_range (size m) (start m) -> reg_ok m -> stamp_ok m -> has_layer m l -> 
  exists o, toOccupancyGrid m l [] = Ok o /\ o_frame o = frame m /\ o_resn o = rnd32 (resn m) /\ o_width o = fst (size m) /\ o_height o = snd (size m) /\
    o_origin o = (fsub (fst (pos m)) (fmul (1#2) (fst (len m))), fsub (snd (pos m)) (fmul (1#2) (snd (len m)))) /\
    forall x y v, 0 <= x < fst (size m) -> 0 <= y < snd (size m) -> 0 <= v <= 255 ->
      value_at m l (fst (size m) - 1 - x, snd (size m) - 1 - y) v -> occ_at o x y = Some (occupancy v).
Proof.
  intros G R S HL. destruct (occ_run m l [] G R S HL) as (d & F & L & V). eexists. split; [exact F|].
  cbn [o_frame o_resn o_width o_height o_origin]. do 5 (split; [reflexivity|]). intros x y v Hx Hy Hv VA.
  unfold occ_at. cbn [o_width o_height o_data].
  match goal with |- (if ?b then _ else _) = _ => replace b with true by (symmetry; lia) end.
  rewrite <- C51_values by exact Hv. rewrite <- (V (fst (size m) - 1 - x, snd (size m) - 1 - y) v); [|split; cbn [fst snd]; lia|exact VA].
  f_equal. f_equal. unfold slot, linear_index. cbn [fst snd]. ring.
Qed.

Lemma occupancy_lethal v : 0 <= v <= 255 -> (occupancy v = 100 <-> v = lethal).
Proof.
  intros Hv. unfold occupancy. destruct (Z.eqb_spec v unknown) as [->|]; [unfold unknown, lethal; lia|].
  destruct (Z.eqb_spec v lethal); [lia|]. destruct (Z.eqb_spec v inscribed); [lia|].
  assert (98 * v / 252 <= 98) by (apply Z.div_le_upper_bound; unfold unknown, lethal, inscribed in *; lia). lia.
Qed.
Lemma occupancy_unknown v : 0 <= v <= 255 -> (occupancy v = -1 <-> v = unknown).
Proof.
  intros Hv. unfold occupancy. destruct (Z.eqb_spec v unknown) as [->|]; [tauto|].
  destruct (Z.eqb_spec v lethal); [lia|]. destruct (Z.eqb_spec v inscribed); [lia|].
  assert (0 <= 98 * v / 252) by (apply Z.div_pos; lia). lia.
Qed.
Lemma occupancy_mono v w : 0 <= v <= w -> w <= lethal -> occupancy v <= occupancy w.
Proof.
  intros [V0 VW] WL. unfold lethal in WL. rewrite <- !C51_values by lia. apply (proj1 (proj2 (proj2 (proj2 (proj2 (proj2 C51_shape)))))); lia.
Qed.

(** What the three grids show at the place of a pixel of the obstacle image: [a]
    the pixel, [b] inflated and [c] deflated again. *)
Record demo_cell (res : Q) (pixel : idx -> Z -> Prop) (i : idx) (a b c : Z) : Prop :=
  { dc_pixel : exists v, pixel i v /\ a = occupancy v;
    dc_lethal : b = 100 <-> a = 100;
    dc_grows : a <> -1 -> a <= b;
    dc_unknown : a = -1 -> b = -1 \/ b = 99;
    dc_inscribed : forall s, pixel s lethal -> (inject_Z (d1 i s) * res <= 3#10)%Q -> 99 <= b;
    dc_local : b <> a -> exists s k, pixel s lethal /\ d2 i s <= k * k /\ 0 < k /\ (inject_Z (k - 1) * res < 801#1000)%Q;
    dc_deflated : c = if b =? 100 then 100 else if b =? -1 then -1 else 0 }.

Lemma shows_fun (C : Cv) n fo i v w : shows n fo i v -> shows n fo i w -> v = w.
Proof. intros A B. inversion A; subst; inversion B; subst; try contradiction; auto; congruence. Qed.

Lemma get_values m m' l : get m' l = get m l -> forall i v, value_at m' l i v <-> value_at m l i v.
Proof. intros G i v. rewrite <- !at_value. unfold at_. unfold get in G. destruct (aget (data m') l), (aget (data m) l); try discriminate; [|tauto]. injection G as ->. tauto. Qed.

Lemma get_layer m m' l : get m' l = get m l -> has_layer m l -> has_layer m' l.
Proof. intros G [d D]. unfold get in G. rewrite D in G. destruct (aget (data m') l) as [d'|] eqn:D'; [now exists d'|discriminate]. Qed.

(** One cell: [v] in the image, [v'] inflated, [c] the costs around lethal cells. *)
Lemma cell_shown res (pixel : idx -> Z -> Prop) i v v' (c : idx -> Z) k :
  pixel i v -> 0 <= v <= 255 -> (pixel i lethal -> v = lethal) ->
  (forall s, 0 <= c s <= lethal /\ (s <> i -> c s <= inscribed)) ->
  (v' = v \/ exists s, pixel s lethal /\ d2 i s <= k * k /\ v' = inflated v (c s)) -> 0 < k -> (inject_Z (k - 1) * res < 801#1000)%Q ->
  (forall s, pixel s lethal -> (inject_Z (d1 i s) * res <= 3#10)%Q -> exists s', inscribed <= c s' /\ v' = inflated v (c s')) ->
  let b := occupancy v' in let w := if Z_le_gt_dec lethal v' then v' else free in
  0 <= v' <= 255 /\ 0 <= w <= 255 /\ demo_cell res pixel i (occupancy v) b (occupancy w).
Proof.
  intros PV BV PL TAB OS K0 KU NI b w.
  assert (IN : forall s, 0 <= inflated v (c s) <= 255 /\ (v <> unknown -> v <= inflated v (c s) <= lethal) /\
    (v = unknown -> inflated v (c s) = unknown \/ inscribed <= inflated v (c s) <= lethal) /\ (v <> lethal -> s <> i -> inflated v (c s) <> lethal) /\
    (v = lethal -> inflated v (c s) = lethal) /\ (inscribed <= c s -> inscribed <= inflated v (c s) <= lethal)).
  { intros s. destruct (TAB s) as (T0 & TN). clear - T0 TN BV. unfold inflated, unknown, inscribed, lethal in *.
    destruct (Z.eq_dec v 255); [destruct (Z_le_gt_dec 253 (c s))|]; repeat split; intros; try specialize (TN ltac:(assumption)); lia. }
  assert (BV' : 0 <= v' <= 255). { destruct OS as [->|(s & _ & _ & ->)]; [exact BV|]. apply IN. }
  assert (LE : v' = lethal <-> v = lethal).
  { destruct OS as [->|(s & LS & _ & ->)]; [tauto|]. destruct (IN s) as (_ & _ & _ & I1 & I2 & _). split; [|exact I2].
    intros L. destruct (Z.eq_dec v lethal) as [Q|Q]; [exact Q|exfalso]. apply I1; auto. intros ->. tauto. }
  assert (MO : v <> unknown -> v <= v' <= lethal).
  { intros N. destruct OS as [->|(s & _ & _ & ->)]; [clear - N BV; unfold unknown, lethal in *; lia|]. now apply IN. }
  assert (UN : v = unknown -> v' = unknown \/ inscribed <= v' <= lethal). { intros N. destruct OS as [->|(s & _ & _ & ->)]; [now left|]. now apply IN. }
  assert (WE : v' = lethal /\ w = v' \/ v' = unknown /\ w = v' \/ v' < lethal /\ w = free).
  { unfold w. clear - BV'. unfold lethal, unknown in *. destruct (Z_le_gt_dec 254 v'); lia. }
  assert (WB : 0 <= w <= 255). { clear - WE BV'. unfold free in *. lia. }
  pose proof (occupancy_lethal v BV) as OL. pose proof (occupancy_lethal v' BV') as OL'.
  pose proof (occupancy_unknown v BV) as OU. pose proof (occupancy_unknown v' BV') as OU'.
  split; [exact BV'|]. split; [exact WB|]. subst b. constructor.
  - exists v. auto.
  - now rewrite OL, OL'.
  - intros NU. assert (NV : v <> unknown) by tauto. destruct (MO NV). apply occupancy_mono; [clear - BV H; lia|assumption].
  - intros EU. apply OU in EU. destruct (UN EU) as [EV|EV]; [left; tauto|right].
    assert (NL : v' <> lethal) by (rewrite LE, EU; discriminate).
    assert (v' = inscribed) as -> by (clear - EV NL; unfold lethal, inscribed in *; lia). reflexivity.
  - intros s PS HD. destruct (NI s PS HD) as (s' & CI & ->). destruct (IN s') as (_ & _ & _ & _ & _ & I). specialize (I CI).
    change 99 with (occupancy inscribed). apply occupancy_mono; [|apply I]. clear - I. unfold inscribed in *. lia.
  - intros NE. destruct OS as [->|(s & LS & D2 & _)]; [contradiction|]. exists s, k. auto.
  - destruct (Z.eqb_spec (occupancy v') 100) as [E1|E1].
    + apply OL' in E1. destruct WE as [[_ ->]|[[Q _]|[Q _]]]; [tauto|rewrite E1 in Q; discriminate|clear - E1 Q; lia].
    + destruct (Z.eqb_spec (occupancy v') (-1)) as [E2|E2].
      * apply OU' in E2. destruct WE as [[Q _]|[[_ ->]|[Q _]]]; [rewrite E2 in Q; discriminate|tauto|clear - E2 Q; unfold unknown, lethal in *; lia].
      * destruct WE as [[Q _]|[[Q _]|[_ ->]]]; [tauto|tauto|reflexivity].
Qed.

(** If the bundle is complete and names an image for the obstacles, the node shows
    its obstacles, inflated, and deflated. *)
Theorem C76_shown : forall (E : Env) (C : Cv) P h ex files plugins b fr r nx ny f,
  real_or_double E -> gray_range C -> pq_spec P -> hypot_approx h -> exp_like ex ->
  finds files plugins b -> complete (b_yaml b) -> y_frame (b_yaml b) = Some fr -> y_resn (b_yaml b) = Some r ->
  y_nx (b_yaml b) = Some nx -> y_ny (b_yaml b) = Some ny -> (1#2048 <= r)%Q -> 1 <= nx <= 2 ^ 22 -> 1 <= ny <= 2 ^ 22 ->
  (forall g p, aget (b_files b) g = Some p -> png_ok p) -> names (y_layers (b_yaml b)) "obstacle_costs" f ->
  exists o1 o2 o3, inflations (FEnv (rne 24) (fun a b => rne 24 (h a b))) P ex files plugins = Ok (Showing o1 o2 o3) /\
    (forall o, In o [o1; o2; o3] -> o_frame o = fr /\ o_width o = nx /\ o_height o = ny /\ (o_resn o == rne 24 r)%Q /\ o_origin o = o_origin o1) /\
    forall x y, 0 <= x < nx -> 0 <= y < ny -> exists a b' c, occ_at o1 x y = Some a /\ occ_at o2 x y = Some b' /\ occ_at o3 x y = Some c /\
      demo_cell (rne 24 r) (fun i v => in_range (nx, ny) i /\ shows (nx, ny) (aget (b_files b) f) i v) (nx - 1 - x, ny - 1 - y) a b' c.
Proof.
  intros E C P h ex files plugins b fr r nx ny f X GR PS HY EX FI K YF YR YX YY HR N0 N1 PO NM. set (F := FEnv (rne 24) (fun a b => rne 24 (h a b))).
  destruct (y_cx (b_yaml b)) as [cx|] eqn:YCX; [|now destruct (k_cx _ K)]. destruct (y_cy (b_yaml b)) as [cy|] eqn:YCY; [|now destruct (k_cy _ K)].
  assert (R0 : reg_ok' (new_map [])). { split; [apply new_map_reg; constructor|cbn; lia]. }
  destruct (C72_loaded E C X GR b (new_map []) fr cx cy r nx ny K YF YCX YCY YR YX YY ltac:(lra) N0 N1 R0 PO)
    as (m & ls & LD & MF & MP & MR & MS & MT & MN & _ & ML & _ & NL & VL & _).
  pose proof (pres_fromImageBundle (rod_nonneg E X) (Some b) (new_map []) R0) as R. rewrite LD in R. cbn [post] in R.
  assert (ST : forall m', same_meta m m' -> stamp_ok m' /\ in_range (size m') (start m')).
  { intros m' (_ & J2 & _ & _ & _ & _ & J7 & J8). unfold stamp_ok. rewrite <- J2, <- J7, <- J8, MN, MS, MT. split; [lia|]. unfold in_range. cbn [fst snd]. lia. }
  destruct (ST m (same_meta_refl m)) as [SO SR].
  pose proof (toMessage_ok m (proj1 R) SO) as TM. set (g := Msg _ _ _ _ _ _ _ _ _) in TM.
  assert (LB : load_image_bundle files plugins example_name = Ok (m, g)).
  { unfold load_image_bundle. destruct FI as [b FI|fl b FI RS FI2].
    - unfold amem. rewrite FI. cbn [rbind]. rewrite FI, LD, TM. reflexivity.
    - unfold amem. rewrite FI, RS. cbn [rbind]. rewrite FI2, LD, TM. reflexivity. }
  assert (HLo : has_layer m "obstacle_costs").
  { apply exists_has, (akeys_has _ _ (proj1 R)). rewrite ML. cbn [layers new_map]. apply appended_In. right. apply NL. now exists f. }
  assert (VAL : forall i, in_range (nx, ny) i -> forall v, value_at m "obstacle_costs" i v <-> shows (nx, ny) (aget (b_files b) f) i v).
  { intros i Hi v. destruct (VL _ f i NM Hi) as (w & SW & VW). split; intros H.
    - apply at_value in H, VW. rewrite H in VW. now injection VW as ->.
    - now rewrite (shows_fun C _ _ _ _ _ H SW). }
  assert (BY : forall i v, shows (nx, ny) (aget (b_files b) f) i v -> 0 <= v <= 255).
  { intros i v. apply (shows_byte C GR). intros p. apply PO. }
  (* the radius *)
  assert (RL : (1#2048 <= rne 24 r)%Q). { change (1#2048)%Q with (rne 24 (1#2048)). apply rne_mono; [lia|exact HR]. }
  assert (RP : (0 < resn m)%Q) by (rewrite MR; lra).
  assert (DR : (8#10 <= demo_radius /\ demo_radius < 8001#10000)%Q) by (split; vm_compute; congruence).
  destruct (C63_double E X demo_radius m RP) as (k & CR & K0 & KL & KU).
  { rewrite MR. change (inject_Z (2 ^ 31)) with 2147483648%Q. lra. }
  rewrite MR in KL, KU.
  assert (KB : 0 < k <= 2048).
  { split.
    - destruct (Z.eq_dec k 0) as [->|]; [|lia]. exfalso. change (inject_Z 0) with 0%Q in KL. unfold DoubleSpec.ulp in KL. lra.
    - destruct (Z_le_gt_dec k 2048) as [J|J]; [exact J|exfalso]. assert (2048 <= inject_Z (k - 1))%Q by (change 2048%Q with (inject_Z 2048); rewrite <- Zle_Qle; lia).
      specialize (KU ltac:(lia)). unfold DoubleSpec.ulp in KU. set (z := inject_Z (k - 1)) in *. clearbody z. set (q := rne 24 r) in *. clearbody q. nra. }
  set (comp := demo_computer F ex) in *. set (costs := cost_table F (resn m) comp).
  assert (CALL : PropInflate.call F P (new_inflater P) None m "obstacle_costs" demo_radius comp k costs).
  { constructor; auto; [constructor|lia|]. cbn [hyp F]. apply C41_float; auto. lia. }
  destruct (call_run F P _ _ m _ _ _ k costs "inflated_costs" CALL) as (_ & o' & m1 & hit & RUN & O).
  pose proof (o_reg _ _ _ _ _ _ _ O) as R1. pose proof (o_meta _ _ _ _ _ _ _ O) as M1.
  assert (HL1 : has_layer m1 "inflated_costs") by (apply exists_has, (o_exists _ _ _ _ _ _ _ O); now right).
  destruct (deflate_run false "inflated_costs" "deflated_costs" m1 R1 HL1) as (m2 & DEF & R2 & M2 & L2 & G2 & V2).
  assert (M : same_meta m m2) by (eapply same_meta_trans; eauto). destruct (ST m2 M) as [SO2 SR2].
  assert (Go : get m2 "obstacle_costs" = get m "obstacle_costs").
  { rewrite (G2 "obstacle_costs"%string) by discriminate. apply (o_others _ _ _ _ _ _ _ O). discriminate. }
  assert (Gi : get m2 "inflated_costs" = get m1 "inflated_costs") by (apply G2; discriminate).
  assert (HLd : has_layer m2 "deflated_costs").
  { apply exists_has, (akeys_has _ _ (proj1 R2)). rewrite L2. destruct (exists_layer m1 "deflated_costs") eqn:XD; [|apply in_app_iff; right; now left].
    now apply (akeys_has _ _ (proj1 R1)). }
  pose proof M as (J1 & J2 & J3 & J4 & J5 & J6 & J7 & J8).
  destruct (shown E m2 "obstacle_costs" SR2 (proj1 R2) SO2) as (o1 & T1 & A1 & A2 & A3 & A4 & A5 & A6); [now apply (get_layer m)|].
  destruct (shown E m2 "inflated_costs" SR2 (proj1 R2) SO2) as (o2 & T2 & B1 & B2 & B3 & B4 & B5 & B6); [now apply (get_layer m1)|].
  destruct (shown E m2 "deflated_costs" SR2 (proj1 R2) SO2 HLd) as (o3 & T3 & C1 & C2 & C3 & C4 & C5 & C6).
  exists o1, o2, o3. split.
  { unfold inflations. fold example_name. rewrite LB. fold comp. rewrite RUN, DEF, T1. cbn [rbind]. rewrite T2. cbn [rbind]. rewrite T3. reflexivity. }
  rewrite <- J7, MS in *. cbn [fst snd] in *.
  assert (RT : (rnd32 (resn m2) == rne 24 r)%Q) by (rewrite <- J5, MR; apply rne_twice; lia).
  split.
  { intros o [<-|[<-|[<-|[]]]].
    - rewrite A1, A2, A3, A4, <- J1, MF. auto.
    - rewrite B1, B2, B3, B4, <- J1, MF, B5, A5. auto.
    - rewrite C1, C2, C3, C4, <- J1, MF, C5, A5. auto. }
  intros x y Hx Hy. set (i := (nx - 1 - x, ny - 1 - y)) in *.
  assert (Hi : in_range (nx, ny) i) by (unfold i, in_range; cbn [fst snd]; lia).
  destruct (VL _ f i NM Hi) as (v & SV & VV). pose proof (BY i v SV) as BV.
  set (pixel := fun (i : idx) (v : Z) => in_range (nx, ny) i /\ shows (nx, ny) (aget (b_files b) f) i v).
  assert (PIX : forall s w, pixel s w <-> value_at m "obstacle_costs" s w).
  { intros s w. unfold pixel. split; [intros [PR PW]; now apply (VAL s PR)|]. intros VW.
    assert (PR : in_range (nx, ny) s) by (rewrite <- MS; apply (value_range m "obstacle_costs" s w (proj1 R) VW)). split; [exact PR|now apply (VAL s PR)]. }
  destruct (outcome_sound k costs _ _ m m1 hit O i v VV) as (v' & VV' & OS & MO & UN).
  assert (TAB : forall s, let c := at_offset costs i s in 0 <= c <= lethal /\ (s <> i -> c <= inscribed) /\
    forall n, 0 <= n <= 2048 -> d2 i s <= n * n -> (rne 24 r * inject_Z n <= 3#10)%Q -> inscribed <= c).
  { intros s. unfold at_offset. set (da := Z.abs (fst i - fst s)). set (db := Z.abs (snd i - snd s)).
    assert (DA : 0 <= da) by apply Z.abs_nonneg. assert (DB : 0 <= db) by apply Z.abs_nonneg.
    destruct (demo_table X h HY ex EX (resn m) da db RP DA DB) as (TA & TB & TC). fold F comp costs in TA, TB, TC.
    split; [exact TA|]. split.
    - intros NE. apply TB. intros Q. injection Q as Q1 Q2. apply NE. clear - Q1 Q2. unfold da, db in *. destruct s as [s0 s1], i as [i0 i1]. cbn [fst snd] in *. f_equal; lia.
    - intros n Hn HD HQ. assert (SQ : da * da + db * db <= n * n). { clear - HD. unfold d2 in HD. unfold da, db. lia. }
      apply (TC n); auto; [clear - Hn SQ DA DB; nia|clear - Hn SQ DA DB; nia|]. rewrite MR. assert (RR : (rne 24 (rne 24 r) == rne 24 r)%Q) by (apply rne_twice; lia). now rewrite RR. }
  assert (UNIQ : forall w w', value_at m1 "inflated_costs" i w -> value_at m1 "inflated_costs" i w' -> w = w').
  { intros w w' H1 H2. apply at_value in H1, H2. rewrite H1 in H2. now injection H2. }
  destruct (cell_shown (rne 24 r) pixel i v v' (at_offset costs i) k) as (BV' & BW & DC).
  - now apply PIX.
  - exact BV.
  - intros PL. apply PIX in PL. apply at_value in PL, VV. rewrite PL in VV. now injection VV.
  - intros s. destruct (TAB s) as (T0 & T1' & _). split; auto.
  - destruct OS as [->|(s & LS & D2 & EV)]; [now left|]. right. exists s. split; [now apply PIX|]. auto.
  - apply KB.
  - specialize (KU (proj1 KB)). clear - KU DR. unfold DoubleSpec.ulp in KU. lra.
  - intros s PSl HD. apply PIX in PSl. assert (D0 : 0 <= d1 i s) by (clear; unfold d1; lia).
    assert (DK : d1 i s <= k).
    { destruct (Z_le_gt_dec (d1 i s) k) as [J|J]; [exact J|exfalso]. assert (J' : (inject_Z k <= inject_Z (d1 i s))%Q) by (rewrite <- Zle_Qle; clear - J; lia).
      clear - KL J' HD RL DR. unfold DoubleSpec.ulp in KL. set (z := inject_Z k) in *. set (z' := inject_Z (d1 i s)) in *. clearbody z z'. set (q := rne 24 r) in *. clearbody q. nra. }
    destruct (outcome_l1 k costs _ _ m m1 hit O R K0 s i v PSl VV DK) as (s' & _ & D2 & VI).
    exists s'. split; [|now apply UNIQ]. destruct (TAB s') as (_ & _ & TI). apply (TI (d1 i s)); auto; [clear - D0 DK KB; lia|]. now rewrite Qmult_comm.
  - eexists _, _, _. split; [apply A6; [exact Hx|exact Hy|exact BV|now apply (get_values m m2 _ Go)]|].
    split; [apply B6; [exact Hx|exact Hy|exact BV'|now apply (get_values m1 m2 _ Gi)]|]. split; [apply C6; [exact Hx|exact Hy|exact BW|apply (V2 i v' VV')]|exact DC].
Qed.
Print Assumptions C76_shown.

(** No bundle, a bundle with a key missing, or one without obstacles: the node ends
    with EXIT_FAILURE. *)
Theorem C76_failed : forall (E : Env) (C : Cv) F P ex files plugins, real_or_double E -> gray_range C ->
  ((forall b, ~ finds files plugins b) -> inflations F P ex files plugins = Ok Failed) /\
  (forall b, finds files plugins b -> ~ complete (b_yaml b) -> inflations F P ex files plugins = Ok Failed) /\
  (forall b r nx ny, finds files plugins b -> complete (b_yaml b) -> y_resn (b_yaml b) = Some r ->
     y_nx (b_yaml b) = Some nx -> y_ny (b_yaml b) = Some ny -> (0 < r)%Q -> 1 <= nx <= 2 ^ 22 -> 1 <= ny <= 2 ^ 22 ->
     (forall g p, aget (b_files b) g = Some p -> png_ok p) -> (forall f, ~ names (y_layers (b_yaml b)) "obstacle_costs" f) ->
     inflations F P ex files plugins = Ok Failed).
Proof.
  intros E C F P ex files plugins X GR.
  assert (LB : forall b, finds files plugins b -> load_image_bundle files plugins example_name =
    match fromImageBundle (Some b) (new_map []) with Flt t => Fault t | Exn e _ => Throw e | Ret _ m => rbind (toMessage m) (fun g => Ok (m, g)) end).
  { intros b FI. unfold load_image_bundle, amem. destruct FI as [b FI|fl b FI RS FI2]; [rewrite FI; cbn [rbind]; now rewrite FI|].
    rewrite FI, RS. cbn [rbind]. now rewrite FI2. }
  split; [|split].
  - intros NF. unfold inflations. fold example_name. unfold load_image_bundle, amem. destruct (aget files example_name) as [b|] eqn:A.
    + destruct (NF b). now constructor.
    + destruct (resolveResourceName plugins example_name) as [g|e|t] eqn:RS; cbn [rbind]; [|reflexivity|].
      * destruct (aget files g) as [b|] eqn:B; [destruct (NF b); now apply (finds_resource _ _ g)|]. now rewrite (proj1 (C72_incomplete E C (Bundle (Yaml None None None None None None []) []) (new_map []))).
      * unfold resolveResourceName in RS. destruct (split_slash example_name) as [[? ?]|]; [destruct (find _ plugins)|]; discriminate.
  - intros b FI NC. unfold inflations. fold example_name. rewrite (LB b FI). now rewrite (proj2 (C72_incomplete E C b (new_map [])) NC).
  - intros b r nx ny FI K YR YX YY HR N0 N1 PO NN. unfold inflations. fold example_name. rewrite (LB b FI).
    destruct (y_frame (b_yaml b)) as [fr|] eqn:YF; [|now destruct (k_frame _ K)].
    destruct (y_cx (b_yaml b)) as [cx|] eqn:YCX; [|now destruct (k_cx _ K)]. destruct (y_cy (b_yaml b)) as [cy|] eqn:YCY; [|now destruct (k_cy _ K)].
    assert (R0 : reg_ok' (new_map [])). { split; [apply new_map_reg; constructor|cbn; lia]. }
    destruct (C72_loaded E C X GR b (new_map []) fr cx cy r nx ny K YF YCX YCY YR YX YY HR N0 N1 R0 PO)
      as (m & ls & LD & _ & _ & _ & _ & _ & MN & _ & ML & _ & NL & _).
    pose proof (pres_fromImageBundle (rod_nonneg E X) (Some b) (new_map []) R0) as R. rewrite LD in R |- *. cbn [post] in R.
    rewrite (toMessage_ok m (proj1 R)) by (unfold stamp_ok; rewrite MN; lia). cbn [rbind]. rewrite C41_missing; [reflexivity|].
    intros HL. apply exists_has, (akeys_has _ _ (proj1 R)) in HL. rewrite ML in HL. cbn [layers new_map] in HL.
    apply appended_In in HL as [[]|HL]. apply NL in HL as [f HL]. now apply (NN f).
Qed.
Print Assumptions C76_failed.

(** Five rows of two pixels of a quarter of a metre: black is lethal, white is free,
    transparent is unknown. *)
Definition tiny : bundle :=
  Bundle (Yaml (Some "map"%string) (Some 0%Q) (Some 0%Q) (Some (1#4)) (Some 5) (Some 2) [(Some "obstacle_costs", Some "t.png")]%string)
    [("t.png"%string, Png 4 5 2 [Px 0 0 0 255; Px 255 255 255 0; Px 255 255 255 255; Px 255 255 255 255; Px 255 255 255 255; Px 255 255 255 0;
       Px 255 255 255 255; Px 255 255 255 255; Px 255 255 255 255; Px 255 255 255 255])].
Definition tiny_end : res ending := Eval vm_compute in
  inflations (E := binary64 BWrap) (C := opencv true) float_env (list_queue true) taylor [("/pkg/cost_map_ros/example.yaml"%string, tiny)] ["/pkg/cost_map_ros/example.yaml"%string].

Example C76_case : finds [("/pkg/cost_map_ros/example.yaml"%string, tiny)] ["/pkg/cost_map_ros/example.yaml"%string] tiny /\
  complete (b_yaml tiny) /\ (forall g p, aget (b_files tiny) g = Some p -> png_ok p) /\ names (y_layers (b_yaml tiny)) "obstacle_costs" "t.png" /\
  inflations (E := binary64 BWrap) (C := opencv true) float_env (list_queue true) taylor [("/pkg/cost_map_ros/example.yaml"%string, tiny)] ["/pkg/cost_map_ros/example.yaml"%string] = tiny_end /\
  match tiny_end with Ok (Showing a b c) => (o_data a, o_data b, o_data c) =
    ([0; 0; -1; 0; -1; 0; 0; 0; 0; 100], [0; 10; -1; 74; 99; 5; 12; 36; 99; 100], [0; 0; -1; 0; 0; 0; 0; 0; 0; 100]) | _ => False end.
Proof.
  split. { apply (finds_resource _ _ "/pkg/cost_map_ros/example.yaml"%string); reflexivity. }
  split. { constructor; try (cbn; discriminate). cbn [b_yaml tiny y_layers In]. intuition (subst; discriminate). }
  split. { intros f p H. unfold tiny in H. cbn [b_files aget] in H. destruct (String.eqb f "t.png"); [|discriminate]. injection H as <-.
    split; [cbn; tauto|]. split; [reflexivity|]. cbn [f_px In]. intros q Hq. intuition (subst; unfold px_range; cbn; lia). }
  split; [constructor|]. split; vm_compute; reflexivity.
Qed.
