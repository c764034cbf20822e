(** Property C78: costmaps shown as occupancy grids by way of cost maps, and the demo
    from_ros_costmaps. *)
From Coq Require Import ZArith QArith Qround Qabs Qfield String List Bool Lia Lqa.
From Verif Require Import Base Mat GridMapMath GridIter CostMap Converter Costmap2D CostmapDemo BaseLemmas Spec ConvertSpec GeoLemmas CoreProofs CoreProofs2 CoreFinal MessageProofs FloatLemmas DoubleSpec DoubleGeo DoubleMap CostmapProofs PropGrid PropCostmap PropCostmapDouble.
Import ListNotations.
Open Scope Z_scope.

(** ** Specification *)

(** Grid [o] of [n] cells in frame [f] shows costmap [k]: every cell has the
    occupancy of a cell of the costmap with the same centre. *)
Definition depicts (k : costmap2d) (f : string) (n : idx) (o : occ) : Prop :=
  o_frame o = f /\ o_width o = fst n /\ o_height o = snd n /\
  forall x y, 0 <= x < fst n -> 0 <= y < snd n -> exists z v,
    cost_at k z v /\ occ_centre o (k_resn k) x y (cost_centre k z) /\ occ_at o x y = Some (occupancy v).

(** A costmap of bytes whose numbers are the same with and without rounding: with
    doubles the resolution is a power of two and the origin a whole number of cells,
    at most [W], away from 0. *)
Definition on_grid (W : Z) (k : costmap2d) : Prop :=
  exists e zo, (k_resn k == pow2 e)%Q /\ veq (k_origin k) (inject_Z (fst zo) * k_resn k, inject_Z (snd zo) * k_resn k)%Q /\
    Z.abs (fst zo) <= W /\ Z.abs (snd zo) <= W.
Definition tidy (E : Env) (W : Z) (k : costmap2d) : Prop :=
  costmap_ok k /\ fst (k_size k) <= 2 ^ 22 /\ snd (k_size k) <= 2 ^ 22 /\ (forall z v, cost_at k z v -> 0 <= v <= 255) /\ 0 <= W <= 2 ^ 48 /\
  (Exact E \/ (exists p, E = binary64 p) /\ on_grid W k).

(** ** Grids of maps *)

Lemma shown_grid (E : Env) m l old : in_range (size m) (start m) -> reg_ok m -> stamp_ok m -> has_layer m l ->
  exists o, toOccupancyGrid m l old = Ok o /\ o_frame o = frame m /\ o_width o = fst (size m) /\ o_height o = snd (size m) /\
    o_origin o = (fsub (fst (pos m)) (fmul (1#2) (fst (len m))), fsub (snd (pos m)) (fmul (1#2) (snd (len m)))) /\
    forall x y v, 0 <= x < fst (size m) -> 0 <= y < snd (size m) -> 0 <= v <= 255 ->
      value_at m l (fst (size m) - 1 - x, snd (size m) - 1 - y) v -> occ_at o x y = Some (occupancy v).
Proof.
  intros G R S HL. destruct (occ_run m l old G R S HL) as (d & F & L & V). eexists. split; [exact F|].
  cbn [o_frame o_resn o_width o_height o_origin]. do 4 (split; [reflexivity|]). intros x y v Hx Hy Hv VA.
  unfold occ_at. cbn [o_width o_height o_data].
  match goal with |- (if ?b then _ else _) = _ => replace b with true by (symmetry; lia) end.
  rewrite <- C51_values by exact Hv. rewrite <- (V (fst (size m) - 1 - x, snd (size m) - 1 - y) v); [|split; cbn [fst snd]; lia|exact VA].
  f_equal. f_equal. unfold slot, linear_index. cbn [fst snd]. ring.
Qed.

(** The origin of the grid. *)
Lemma grid_origin (E : Env) W k m a : costmap_ok k -> Exact E \/ (exists p, E = binary64 p) /\ on_grid W k -> 0 <= W <= 2 ^ 48 ->
  geo_ok m -> resn m = k_resn k -> fst (size m) <= 2 ^ 51 -> snd (size m) <= 2 ^ 51 ->
  vertex k a (lower m) -> Z.abs (fst a) <= 2 ^ 51 -> Z.abs (snd a) <= 2 ^ 51 ->
  veq (fsub (fst (pos m)) (fmul (1#2) (fst (len m))), fsub (snd (pos m)) (fmul (1#2) (snd (len m)))) (lower m).
Proof.
  intros (RP & _) X HW G RM S0 S1 [V0 V1] A0 A1. destruct (g_size _ G) as [N0 N1]. destruct (g_len _ G) as [L0 L1]. rewrite RM in L0, L1.
  unfold lower in V0, V1. cbn [fst snd] in V0, V1, L0, L1. destruct X as [X|[[p ->] (e & zo & RE & [O0 O1] & Z0 & Z1)]].
  { split; cbn [fst snd lower]; rewrite (fsub_eq X), (fmul_eq X); field. }
  cbn [fst snd] in O0, O1.
  assert (AX : forall ps ln o z a n, 0 < n <= 2 ^ 51 -> Z.abs a <= 2 ^ 51 -> Z.abs z <= W -> (o == inject_Z z * k_resn k)%Q ->
    (ln == inject_Z n * k_resn k)%Q -> (ps - ln / 2 == o + inject_Z a * k_resn k)%Q ->
    (fsub (E := binary64 p) ps (fmul (E := binary64 p) (1#2) ln) == ps - ln / 2)%Q).
  { intros ps ln o z b n N A Z O LE V.
    assert (H : (fmul (E := binary64 p) (1#2) ln == ln / 2)%Q).
    { assert (H0 : ((1#2) * ln == inject_Z n * (k_resn k / 2))%Q) by (rewrite LE; field).
      unfold fmul. rewrite (half_fixed p e (k_resn k) RE _ n); [rewrite LE; field|lia|exact H0]. }
    unfold fsub. rewrite (fixed p _ (z + b) e); [now rewrite H|lia|]. rewrite H, V, O, RE, inject_Z_plus. ring. }
  split; cbn [fst snd lower]; [eapply AX; [| | |exact O0|exact L0|exact V0]|eapply AX; [| | |exact O1|exact L1|exact V1]]; lia.
Qed.

(** A map that lies on a costmap gives a grid that depicts it. *)
Lemma depicted (E : Env) W k m l n a : tidy E W k -> geo_ok m -> reg_ok' m -> stamp_ok m -> has_layer m l ->
  size m = n -> resn m = k_resn k -> start m = (0, 0) -> fst n <= 2 ^ 51 -> snd n <= 2 ^ 51 ->
  vertex k a (lower m) -> Z.abs (fst a) <= 2 ^ 51 -> Z.abs (snd a) <= 2 ^ 51 ->
  (forall i, in_range n i -> exists y v, value_at m l i v /\ cost_at k y v /\ veq (centre m i) (cost_centre k y)) ->
  forall old, exists o, toOccupancyGrid m l old = Ok o /\ veq (o_origin o) (lower m) /\ depicts k (frame m) n o.
Proof.
  intros (KO & _ & _ & B & HW & X) G R S HL SM RM TM N0 N1 V A0 A1 C old. subst n.
  destruct (shown_grid E m l old (g_start _ G) (proj1 R) S HL) as (o & F & OF & OW & OH & OO & AT).
  pose proof (grid_origin E W k m a KO X HW G RM N0 N1 V A0 A1) as OE. rewrite <- OO in OE.
  exists o. split; [exact F|]. split; [exact OE|]. split; [exact OF|]. split; [exact OW|]. split; [exact OH|].
  intros x y Hx Hy. destruct (C (fst (size m) - 1 - x, snd (size m) - 1 - y)) as (z & v & VA & CA & [C0 C1]); [split; cbn [fst snd]; lia|].
  exists z, v. split; [exact CA|]. split; [|apply AT; eauto].
  destruct OE as [E0 E1]. destruct (g_len _ G) as [L0 L1]. rewrite RM in L0, L1. cbn [fst snd] in L0, L1.
  unfold occ_centre. rewrite <- C0, <- C1, E0, E1. unfold lower, centre, world_index, centre1. rewrite TM, RM. cbn [fst snd].
  rewrite !Z.sub_0_r, !Z.mod_small by lia. rewrite L0, L1. split; injz; field.
Qed.

(** ** C78 *)

(** The whole costmap. *)
Theorem C78_whole : forall E W c l m old, let k := c_map c in tidy E W k -> reg_ok' m -> stamp_ok m ->
  exists m' o, fromCostmap2DROS c l m = Ret true m' /\ layers m' = (if exists_layer m l then layers m else layers m ++ [l]) /\
    toOccupancyGrid m' l old = Ok o /\ veq (o_origin o) (k_origin k) /\ depicts k (c_frame c) (k_size k) o.
Proof.
  intros E W c l m old k T R S. pose proof T as (KO & S0 & S1 & B & HW & X). pose proof KO as (RP & K0 & K1 & L).
  assert (Z : exists m', fromCostmap2DROS c l m = Ret true m' /\ made_from m m' l (c_frame c) (k_size k) (k_resn k) /\ stamp m' = stamp m /\
    (forall x v, cost_at k x v -> value_at m' l (fst (k_size k) - 1 - fst x, snd (k_size k) - 1 - snd x) v) /\
    geo_ok m' /\ veq (lower m') (k_origin k)).
  { destruct X as [X|[[p ->] (e & zo & RE & OE & Z0 & Z1)]].
    - destruct (C73_whole E (or_introl X) c l m KO S0 S1 R) as (m' & F & MF & ST & VF & G & _). destruct (G X) as (G1 & G2 & G3). exists m'. auto 10.
    - destruct (C73_binary p c l m e zo W KO S0 S1 HW RE OE Z0 Z1 R) as (m' & F & MF & ST & VF & G1 & G2 & G3). exists m'. auto 10. }
  clear X. destruct Z as (m' & F & MF & ST & VF & G & [O0 O1]). pose proof MF as [R' FM BM SM RM TM LM OT].
  pose proof (g_len _ G) as [L0 L1]. rewrite SM, RM in L0, L1. unfold lower in O0, O1. cbn [fst snd] in O0, O1, L0, L1.
  destruct (depicted E W k m' l (k_size k) (0, 0)) with (old := old) as (o & FO & OE & D); auto; try (cbn [fst snd]; lia).
  - unfold stamp_ok. rewrite ST. exact S.
  - destruct (cost_exists k (0, 0) KO) as [v V]; [split; cbn [fst snd]; lia|]. destruct (VF _ _ V) as (d & Hd & _). now exists d.
  - unfold vertex, lower. split; cbn [fst snd]; [rewrite O0|rewrite O1]; change (inject_Z 0) with 0%Q; ring.
  - intros i Hi. destruct Hi as [I0 I1]. set (y := (fst (k_size k) - 1 - fst i, snd (k_size k) - 1 - snd i)).
    destruct (cost_exists k y KO) as [v V]; [split; cbn [y fst snd]; lia|]. exists y, v. split; [|split; [exact V|]].
    + specialize (VF _ _ V). unfold y in VF. cbn [fst snd] in VF. destruct i as [i0 i1]. cbn [fst snd] in *.
      replace (fst (k_size k) - 1 - (fst (k_size k) - 1 - i0)) with i0 in VF by lia. replace (snd (k_size k) - 1 - (snd (k_size k) - 1 - i1)) with i1 in VF by lia. exact VF.
    + unfold centre, world_index, centre1, cost_centre. rewrite TM, SM, RM. cbn [y fst snd]. rewrite !Z.sub_0_r, !Z.mod_small by lia.
      split; cbn [fst snd]; [rewrite <- O0, L0|rewrite <- O1, L1]; injz; field.
  - exists m', o. split; [exact F|]. split; [exact LM|]. split; [exact FO|]. rewrite FM in D. split; [|exact D].
    destruct OE as [E0 E1]. unfold lower in E0, E1. cbn [fst snd] in E0, E1. split; [rewrite E0|rewrite E1]; assumption.
Qed.
Print Assumptions C78_whole.

(** A window around the robot: [n] cells from cell [a] on, with the robot near its
    centre. *)
Definition around (k : costmap2d) (n a : idx) (x : vec) : Prop :=
  close (3 * k_resn k / 4) (fst (k_origin k) + (inject_Z (fst a) + inject_Z (fst n) / 2) * k_resn k, snd (k_origin k) + (inject_Z (snd a) + inject_Z (snd n) / 2) * k_resn k)%Q x.
Definition inside (k : costmap2d) (n a : idx) : Prop :=
  0 <= fst a /\ 0 <= snd a /\ fst a + fst n < fst (k_size k) /\ snd a + snd n < snd (k_size k).

(** The robot is at most [W] cells away from the origin. *)
Definition in_reach (W : Z) (c : ros_costmap) : Prop :=
  forall x, c_pose c = Some x -> close (inject_Z W * k_resn (c_map c)) x (k_origin (c_map c)).

Theorem C78_window : forall E W c l n geometry, let k := c_map c in tidy E W k -> 0 <= c_now c < 4294967296 * 1000000000 ->
  in_reach W c -> 0 < fst n <= W -> 0 < snd n <= W -> veq geometry (inject_Z (fst n) * k_resn k, inject_Z (snd n) * k_resn k)%Q ->
  (exists x a m', c_pose c = Some x /\ around k n a x /\ inside k n a /\
     fromCostmap2DROSAtRobotPose c geometry l (new_map []) = Ret true m' /\ layers m' = [l] /\
     forall old, exists o, toOccupancyGrid m' l old = Ok o /\ vertex k a (o_origin o) /\ depicts k (c_frame c) n o) \/
  ((c_pose c = None \/ exists x a, c_pose c = Some x /\ around k n a x /\ ~ inside k n a) /\
   exists m', fromCostmap2DROSAtRobotPose c geometry l (new_map []) = Ret false m' /\ layers m' = []).
Proof.
  intros E W c l n geometry k T TS RW N0 N1 GE. pose proof T as (KO & S0 & S1 & B & HW & X). pose proof KO as (RP & K0 & K1 & L).
  destruct (c_pose c) as [x|] eqn:HP.
  2:{ right. split; [now left|]. exists (new_map []). split; [|reflexivity]. now apply C74_refused. }
  pose proof (RW x HP) as XW. fold k in XW.
  assert (R0 : reg_ok' (new_map [])) by (split; [apply new_map_reg; constructor|cbn; lia]).
  assert (Z34 : forall r, (3 * r / 4 == (3#4) * r)%Q) by (intros; field). assert (Z12 : forall r, (r / 2 == (1#2) * r)%Q) by (intros; field).
  assert (Z : exists a m' b, fromCostmap2DROSAtRobotPose c geometry l (new_map []) = Ret b m' /\
    geo_ok m' /\ reg_ok' m' /\ frame m' = c_frame c /\ stamp m' = c_now c /\ size m' = n /\ resn m' = k_resn k /\
    vertex k a (lower m') /\ close (3 * k_resn k / 4) (pos m') x /\ (b = true <-> inside k n a) /\
    (b = true -> made_from (new_map []) m' l (c_frame c) n (k_resn k) /\
       forall i, in_range n i -> exists y v, value_at m' l i v /\ cost_at k y v /\ veq (centre m' i) (cost_centre k y)) /\
    (b = false -> layers m' = [])).
  { destruct X as [X|[[p ->] (e & zo & RE & OE & Z0 & Z1)]].
    - destruct (C74_window E X c l (new_map []) x n geometry KO HP ltac:(lia) ltac:(lia) GE R0) as (a & m' & b & H1 & H2 & H3 & H4 & H5 & H6 & H7 & H8 & [P0 P1] & H10 & H11 & H12).
      exists a, m', b. fold k in P0, P1, RP. repeat (split; [auto; fail|]). split; [|split; [auto|split; [auto|intros; now apply H12]]].
      assert (Q : (k_resn k / 2 <= 3 * k_resn k / 4)%Q) by (rewrite (Z34 (k_resn k)), (Z12 (k_resn k)); lra).
      split; (eapply Qle_trans; [|exact Q]); assumption.
    - destruct (C74_binary p c l (new_map []) x n geometry e zo W KO HP HW N0 N1 RE OE Z0 Z1 XW GE R0) as (a & m' & b & H1 & H2 & H3 & H4 & H5 & H6 & H7 & H8 & [P0 P1] & H10 & H11 & H12).
      exists a, m', b. repeat (split; [auto; fail|]). split; [|split; [auto|split; [auto|intros; now apply H12]]].
      assert (Q : (k_resn k / 2 + ulp * (inject_Z W * k_resn k) <= 3 * k_resn k / 4)%Q).
      { assert (WQ : (inject_Z W <= 281474976710656)%Q) by (change 281474976710656%Q with (inject_Z (2 ^ 48)); rewrite <- Zle_Qle; lia).
        assert (WR : (inject_Z W * k_resn k <= 281474976710656 * k_resn k)%Q) by (apply Qmult_le_compat_r; [exact WQ|lra]).
        set (w := (inject_Z W * k_resn k)%Q) in *. clearbody w. change ulp with (1 # 9007199254740992)%Q. rewrite (Z34 (k_resn k)), (Z12 (k_resn k)). lra. }
      split; (eapply Qle_trans; [|exact Q]); assumption. }
  clear X. destruct Z as (a & m' & b & RUN & G & R & FM & SM & ZM & RM & V & CL & IN & TR & FA).
  pose proof (g_len _ G) as [L0 L1]. rewrite ZM, RM in L0, L1. pose proof V as [V0 V1]. unfold lower in V0, V1. cbn [fst snd] in V0, V1, L0, L1.
  assert (AR : around k n a x).
  { unfold around. destruct CL as [C0 C1]. split; cbn [fst snd] in *.
    - assert (P : (fst (pos m') == fst (k_origin k) + (inject_Z (fst a) + inject_Z (fst n) / 2) * k_resn k)%Q).
      { assert (Q : (fst (pos m') == (fst (pos m') - fst (len m') / 2) + fst (len m') / 2)%Q) by field. rewrite Q, V0, L0. field. }
      rewrite <- P. exact C0.
    - assert (P : (snd (pos m') == snd (k_origin k) + (inject_Z (snd a) + inject_Z (snd n) / 2) * k_resn k)%Q).
      { assert (Q : (snd (pos m') == (snd (pos m') - snd (len m') / 2) + snd (len m') / 2)%Q) by field. rewrite Q, V1, L1. field. }
      rewrite <- P. exact C1. }
  destruct b.
  - left. exists x, a, m'. pose proof (proj1 IN eq_refl) as I. split; [reflexivity|]. split; [exact AR|]. split; [exact I|]. split; [exact RUN|].
    destruct (TR eq_refl) as [MF CE]. pose proof MF as [R' FM' BM SM' RM' TM LM OT]. split; [exact LM|]. intros old. unfold inside in I.
    destruct (depicted E W k m' l n a) with (old := old) as (o & FO & OE & D); auto; try lia.
    + unfold stamp_ok. rewrite SM. exact TS.
    + apply BaseLemmas.aget_In, (r_same _ (proj1 R)). rewrite LM. now left.
    + exists o. split; [exact FO|]. rewrite FM in D. split; [|exact D]. destruct OE as [E0 E1]. split; [rewrite E0; exact (proj1 V)|rewrite E1; exact (proj2 V)].
  - right. split; [right; exists x, a; split; [reflexivity|]; split; [exact AR|]; intros I; apply IN in I; discriminate|].
    exists m'. split; [exact RUN|]. now apply FA.
Qed.
Print Assumptions C78_window.

(** *** The demo *)

(** A costmap of the demo: resolution 1/2, as set in lib/from_ros_costmaps.cpp:53,
    the origin a multiple of it, at most 2^40 cells away from 0 as is the robot. *)
Definition demo_costmap (E : Env) (c : ros_costmap) : Prop :=
  tidy E (2 ^ 40) (c_map c) /\ (k_resn (c_map c) == 1#2)%Q /\ 0 <= c_now c < 4294967296 * 1000000000 /\ in_reach (2 ^ 40) c.

(** Grid [o] shows the window of [n] cells of [c] around the robot; there is no such
    window inside. *)
Definition seen (c : ros_costmap) (n : idx) (o : occ) : Prop :=
  exists x a, c_pose c = Some x /\ around (c_map c) n a x /\ inside (c_map c) n a /\ vertex (c_map c) a (o_origin o) /\ depicts (c_map c) (c_frame c) n o.
Definition unseen (c : ros_costmap) (n : idx) : Prop :=
  c_pose c = None \/ exists x a, c_pose c = Some x /\ around (c_map c) n a x /\ ~ inside (c_map c) n a.
Definition seen_whole (c : ros_costmap) (o : occ) : Prop :=
  veq (o_origin o) (k_origin (c_map c)) /\ depicts (c_map c) (c_frame c) (k_size (c_map c)) o.

(** The grids published and how the demo ends. Where a window does not fit, the
    grids before it have been published and then the name of a layer is read that
    does not exist. *)
Theorem C78_demo : forall E c1 c2 c3 c4 c5, demo_costmap E c1 -> demo_costmap E c2 -> demo_costmap E c3 -> demo_costmap E c4 -> demo_costmap E c5 ->
  exists o1 o2, seen_whole c1 o1 /\ seen_whole c2 o2 /\
    ((exists o3 o4 o5, seen c3 (6, 6) o3 /\ seen c4 (6, 6) o4 /\ seen c5 (5, 5) o5 /\
        from_ros_costmaps c1 c2 c3 c4 c5 = ([o1; o2; o3; o4; o5], Ok tt)) \/
     (unseen c3 (6, 6) /\ from_ros_costmaps c1 c2 c3 c4 c5 = ([o1; o2], Fault OutOfBounds)) \/
     (exists o3, seen c3 (6, 6) o3 /\ unseen c4 (6, 6) /\ from_ros_costmaps c1 c2 c3 c4 c5 = ([o1; o2; o3], Fault OutOfBounds)) \/
     (exists o3 o4, seen c3 (6, 6) o3 /\ seen c4 (6, 6) o4 /\ unseen c5 (5, 5) /\
        from_ros_costmaps c1 c2 c3 c4 c5 = ([o1; o2; o3; o4], Fault OutOfBounds))).
Proof.
  intros E c1 c2 c3 c4 c5 D1 D2 D3 D4 D5.
  assert (R0 : reg_ok' (new_map [])) by (split; [apply new_map_reg; constructor|cbn; lia]).
  assert (S0 : stamp_ok (new_map [])) by (unfold stamp_ok; cbn; lia).
  assert (WH : forall c, demo_costmap E c -> exists m', converted (fromCostmap2DROS c "obstacle_costs") = Ok m' /\ layers m' = ["obstacle_costs"%string] /\
    forall old, exists o, toOccupancyGrid m' "obstacle_costs" old = Ok o /\ seen_whole c o).
  { intros c (T & _). destruct (C78_whole E _ c "obstacle_costs" (new_map []) [] T R0 S0) as (m' & o & F & LM & _). exists m'.
    unfold converted. rewrite F. split; [reflexivity|]. split; [exact LM|]. intros old.
    destruct (C78_whole E _ c "obstacle_costs" (new_map []) old T R0 S0) as (m2 & o2 & F2 & _ & G & A & B). rewrite F in F2. injection F2 as <-.
    exists o2. split; [exact G|]. split; assumption. }
  assert (WI : forall c n z, demo_costmap E c -> 0 < n <= 6 -> (z == inject_Z n * (1#2))%Q ->
    exists m', converted (fromCostmap2DROSAtRobotPose c (z, z) "obstacle_costs") = Ok m' /\
     ((layers m' = ["obstacle_costs"%string] /\ forall old, exists o, toOccupancyGrid m' "obstacle_costs" old = Ok o /\ seen c (n, n) o) \/
      (layers m' = [] /\ unseen c (n, n)))).
  { intros c n z (T & RH & TS & RW) N ZE.
    assert (GE : veq (z, z) (inject_Z (fst (n, n)) * k_resn (c_map c), inject_Z (snd (n, n)) * k_resn (c_map c))%Q) by (split; cbn [fst snd]; now rewrite RH).
    destruct (C78_window E _ c "obstacle_costs" (n, n) (z, z) T TS RW) as [(x & a & m' & HP & A & I & F & LM & G)|(U & m' & F & LM)]; cbn [fst snd]; try lia; auto.
    - exists m'. unfold converted. rewrite F. split; [reflexivity|]. left. split; [exact LM|]. intros old. destruct (G old) as (o & FO & V & D).
      exists o. split; [exact FO|]. exists x, a. auto.
    - exists m'. unfold converted. rewrite F. split; [reflexivity|]. right. split; [exact LM|exact U]. }
  destruct (WH c1 D1) as (m1 & F1 & L1 & G1). destruct (WH c2 D2) as (m2 & F2 & L2 & G2).
  destruct (WI c3 6 3%Q D3 ltac:(lia) ltac:(reflexivity)) as (m3 & F3 & H3). destruct (WI c4 6 3%Q D4 ltac:(lia) ltac:(reflexivity)) as (m4 & F4 & H4).
  destruct (WI c5 5 (5#2)%Q D5 ltac:(lia) ltac:(reflexivity)) as (m5 & F5 & H5). clear WH WI.
  destruct (G1 []) as (o1 & P1 & Q1). destruct (G2 (o_data o1)) as (o2 & P2 & Q2). exists o1, o2. split; [exact Q1|]. split; [exact Q2|].
  unfold from_ros_costmaps, conversions. cbn [rmap]. rewrite F1, F2, F3, F4, F5. cbn [rbind publish]. rewrite L1, P1, L2, P2.
  destruct H3 as [[L3 G3]|[L3 U3]]; [|right; left; split; [exact U3|]; rewrite L3; reflexivity].
  destruct (G3 (o_data o2)) as (o3 & P3 & Q3). rewrite L3, P3.
  destruct H4 as [[L4 G4]|[L4 U4]]; [|right; right; left; exists o3; split; [exact Q3|]; split; [exact U4|]; rewrite L4; reflexivity].
  destruct (G4 (o_data o3)) as (o4 & P4 & Q4). rewrite L4, P4.
  destruct H5 as [[L5 G5]|[L5 U5]]; [|right; right; right; exists o3, o4; split; [exact Q3|]; split; [exact Q4|]; split; [exact U5|]; rewrite L5; reflexivity].
  destruct (G5 (o_data o4)) as (o5 & P5 & Q5). rewrite L5, P5. left. exists o3, o4, o5. auto.
Qed.
Print Assumptions C78_demo.

(** The costmaps and poses of applications/from_ros_costmaps.cpp:44-48 and
    lib/from_ros_costmaps.cpp:21-25 as doubles, except that the second costmap is as
    large as the others and no cell is cleared. With the third robot nearer to the
    border the demo ends after two grids. *)
Definition striped (o : vec) (x y : Q) : ros_costmap :=
  RosCostmap (Costmap2D (10, 10) (1#2) o strip_costs) "map" (Some (rne 53 x, rne 53 y)) 7.
Lemma striped_ok o z x y : let E := binary64 BClamp in veq o (inject_Z (fst z) * (1#2), inject_Z (snd z) * (1#2))%Q -> Z.abs (fst z) <= 100 -> Z.abs (snd z) <= 100 ->
  close (2 ^ 20) (rne 53 x, rne 53 y) o -> demo_costmap E (striped o x y).
Proof.
  intros E [O0 O1] Z0 Z1 [C0 C1]. split; [|split; [reflexivity|split; [cbn; lia|]]].
  - split; [vm_compute; repeat split; reflexivity|]. split; [cbn; lia|]. split; [cbn; lia|]. split.
    + intros c v [_ H]. apply nth_error_In in H. cbn [striped c_map k_char] in H.
      assert (A : forallb (fun v => (0 <=? v) && (v <=? 255)) strip_costs = true) by (vm_compute; reflexivity).
      rewrite forallb_forall in A. specialize (A v H). lia.
    + split; [lia|]. right. split; [exists BClamp; reflexivity|]. exists (-1), z. split; [reflexivity|]. split; [split; assumption|]. lia.
  - intros w H. injection H as <-. cbn [striped c_map k_resn k_origin].
    assert (B : (2 ^ 20 <= inject_Z (2 ^ 40) * (1#2))%Q) by (vm_compute; discriminate).
    split; (eapply Qle_trans; [|exact B]); assumption.
Qed.

Definition brief (r : list occ * res unit) : list (Z * Z * vec) * res unit := (map (fun o => (o_width o, o_height o, o_origin o)) (fst r), snd r).

Example C78_case : let E := binary64 BClamp in
  let c1 := striped (0, 0)%Q 1 1 in let c2 := striped (0, -5)%Q 1 (-3) in let c3 := striped (-6, 0)%Q (-37#10) (24#10) in
  let c4 := striped (-6, -6)%Q (-7#2) (-7#2) in let c5 := striped (-12, 0)%Q (-97#10) (24#10) in
  (demo_costmap E c1 /\ demo_costmap E c2 /\ demo_costmap E c3 /\ demo_costmap E c4 /\ demo_costmap E c5) /\
  (let r := from_ros_costmaps c1 c2 c3 c4 c5 in
   brief r = ([(10, 10, (0, 0)%Q); (10, 10, (0, -5)%Q); (6, 6, (-5, 1)%Q); (6, 6, (-5, -5)%Q); (5, 5, (-11, 1)%Q)], Ok tt) /\
   map o_data (skipn 4 (fst r)) = [flat_map (fun _ => [29; 39; 49; 58; 68]) (zseq 5)]) /\
  brief (from_ros_costmaps c1 c2 (striped (-6, 0)%Q (-5) (24#10)) c4 c5) = ([(10, 10, (0, 0)%Q); (10, 10, (0, -5)%Q)], Fault OutOfBounds).
Proof.
  cbv zeta. split; [|split].
  - assert (K : forall o z x y, veq o (inject_Z (fst z) * (1#2), inject_Z (snd z) * (1#2))%Q -> (Z.abs (fst z) <=? 100) = true -> (Z.abs (snd z) <=? 100) = true ->
      Qle_bool (Qabs (rne 53 x - fst o)) (2 ^ 20) = true -> Qle_bool (Qabs (rne 53 y - snd o)) (2 ^ 20) = true -> demo_costmap (binary64 BClamp) (striped o x y)).
    { intros o z x y O Z0 Z1 C0 C1. apply striped_ok with (z := z); [exact O|lia|lia|]. split; cbn [fst snd]; now apply Qle_bool_iff. }
    split; [apply K with (z := (0, 0)); [split; vm_compute; reflexivity|vm_compute; reflexivity..]|].
    split; [apply K with (z := (0, -10)); [split; vm_compute; reflexivity|vm_compute; reflexivity..]|].
    split; [apply K with (z := (-12, 0)); [split; vm_compute; reflexivity|vm_compute; reflexivity..]|].
    split; [apply K with (z := (-12, -12)); [split; vm_compute; reflexivity|vm_compute; reflexivity..]|].
    apply K with (z := (-24, 0)); [split; vm_compute; reflexivity|vm_compute; reflexivity..].
  - split; vm_compute; reflexivity.
  - vm_compute; reflexivity.
Qed.
