(** Property C100: negative radii and axes. *)
From Coq Require Import ZArith QArith Qabs Qround Qreduction Lqa String List Bool Lia.
From Verif Require Import Base BaseLemmas Mat GridMapMath GridIter CostMap Iterators Spec GeoLemmas SubmapProofs IterProofs FilterProofs FloatMono PropWindow PropOutside Samples.
Import ListNotations.
Open Scope Z_scope.

(** ** Circles *)

Section Circle.
Context {E : Env} (X : Exact E).

Lemma one_cell ins f m s e : geo_ok m -> start m = (0, 0) -> in_range (size m) s -> in_range (size m) e ->
  fst (world_index m e) <= fst (world_index m s) -> snd (world_index m e) <= snd (world_index m s) ->
  (forall i, in_range (size m) i -> ins i = Ok (f i)) ->
  filt_visits ins (size m) (start m) s (naive_size s e) = Ok (filter f [s]).
Proof.
  intros G S Rs Re A B HI.
  assert (W : forall i, in_range (size m) i -> world_index m i = i).
  { intros [i j] [H0 H1]. unfold world_index. rewrite S. cbn [fst snd] in *. rewrite !Z.sub_0_r, !Z.mod_small by lia. reflexivity. }
  rewrite !W in A, B by assumption.
  destruct (Z.eq_dec (fst s) (fst e)) as [E0|E0]; [destruct (Z.eq_dec (snd s) (snd e)) as [E1|E1]|].
  2-3: apply filt_degenerate; auto; unfold naive_size; cbn [fst snd]; lia.
  apply filt_trace; [|unfold grid_fuel, naive_size; cbn; rewrite E0, E1; replace (fst e - fst e + 1) with 1 by lia; replace (snd e - snd e + 1) with 1 by lia; vm_compute; lia|].
  - change s with (sb_index (sub_iter_new (size m) (start m) s (naive_size s e))) at 2. constructor; [reflexivity|]. constructor.
    unfold sub_iter_next, increment_submap, sub_iter_new. cbn [sb_sindex sb_index sb_sstart sb_ssize sb_size sb_start fst snd].
    unfold naive_size. cbn [fst snd]. replace (snd e - snd s + 1) with 1 by lia. replace (fst e - fst s + 1) with 1 by lia. reflexivity.
  - intros i [<-|[]]. now apply HI.
Qed.

(** Between any two cells, on any map: the rectangle of the buffer, or its first
    index if there is none. *)
Lemma rectangle ins f n st s e : in_range n st -> in_range n s -> in_range n e -> (forall i, in_range n i -> ins i = Ok (f i)) ->
  exists vs, filt_visits ins n st s (naive_size s e) = Ok vs /\ NoDup vs /\
    forall i, In i vs <-> f i = true /\ (i = s \/ (fst s <= fst i <= fst e /\ snd s <= snd i <= snd e)).
Proof.
  intros Hs Rs Re HI.
  destruct (Z_le_gt_dec (fst (naive_size s e)) 0) as [D|D]; [|destruct (Z_le_gt_dec (snd (naive_size s e)) 0) as [D'|D']].
  3: {
    pose proof (sub_visits_any n st s (naive_size s e) Hs Rs ltac:(lia) ltac:(lia)) as V. unfold sub_visits in V.
    destruct (any_list_spec n st s (naive_size s e) ltac:(lia) ltac:(lia)) as (A & B & _).
    destruct (run_trace (fun it => (sb_index it, sb_sindex it)) (grid_fuel (naive_size s e)) (fun _ => eq_refl) _ _ V) as [T L].
    assert (CELL : forall w, in_range (naive_size s e) w -> any_cell n st s w = (fst s + fst w, snd s + snd w)).
    { intros w W. apply (region_cell n st s (naive_size s e)); auto; unfold naive_size; cbn [fst snd]; destruct Re; lia. }
    assert (IN : forall i, In i (map fst (any_list n st s (naive_size s e))) <-> fst s <= fst i <= fst e /\ snd s <= snd i <= snd e).
    { intros i. rewrite in_map_iff. split.
      - intros ((j & w) & <- & Hw). cbn [fst]. apply A in Hw as [W ->]. rewrite CELL by assumption. unfold naive_size in W. destruct W. cbn [fst snd] in *. lia.
      - intros [I0 I1]. exists (i, (fst i - fst s, snd i - snd s)). split; [reflexivity|]. apply A.
        assert (W : in_range (naive_size s e) (fst i - fst s, snd i - snd s)) by (unfold naive_size; split; cbn [fst snd]; lia).
        split; [exact W|]. rewrite CELL by exact W. cbn [fst snd]. rewrite !Zplus_minus. now destruct i. }
    rewrite (filt_trace ins f n st s (naive_size s e) _ T).
    - eexists. split; [reflexivity|]. split.
      + apply NoDup_filter. unfold any_list. rewrite map_map. cbn [fst].
        apply NoDup_map_inj; [|apply zseq_NoDup].
        intros x y Hx Hy Q. apply In_zseq in Hx, Hy.
        assert (Wx : in_range (naive_size s e) (kth (naive_size s e) x)) by (apply kth_in_range; lia).
        assert (Wy : in_range (naive_size s e) (kth (naive_size s e) y)) by (apply kth_in_range; lia).
        rewrite !CELL in Q by assumption. pose proof (f_equal fst Q) as Q0. pose proof (f_equal snd Q) as Q1. cbn [fst snd] in Q0, Q1.
        pose proof (kth_lin (naive_size s e) x ltac:(lia)) as X0. pose proof (kth_lin (naive_size s e) y ltac:(lia)) as Y0.
        assert (Q2 : fst (kth (naive_size s e) x) = fst (kth (naive_size s e) y)) by lia.
        assert (Q3 : snd (kth (naive_size s e) x) = snd (kth (naive_size s e) y)) by lia.
        rewrite Q2, Q3 in X0. congruence.
      + intros i. rewrite filter_In, IN. assert (i = s -> fst s <= fst i <= fst e /\ snd s <= snd i <= snd e).
        { intros ->. unfold naive_size in D, D'. cbn [fst snd] in D, D'. lia. } tauto.
    - now rewrite map_length.
    - intros i Hi. apply HI. apply IN in Hi. destruct Rs, Re. split; lia. }
  all: rewrite (filt_degenerate ins f) by auto; eexists; (split; [reflexivity|]); (split; [apply NoDup_filter; repeat constructor; auto|]);
    intros i; rewrite filter_In; cbn [In]; unfold naive_size in *; cbn [fst snd] in *;
    (split; [intros [[<-|[]] F]; auto|intros [F [->|K]]; [auto|exfalso; lia]]).
Qed.

Lemma corner_in m p q : geo_ok m -> veq p q -> (border_eps (fst q) < resn m)%Q -> (border_eps (snd q) < resn m)%Q ->
  in_range (size m) (corner_index m p) /\
  ((fst (lower m) < fst q)%Q -> (fst q < fst (upper m))%Q -> (snd (lower m) < snd q)%Q -> (snd q < snd (upper m))%Q ->
   contains (resn m) (centre m (corner_index m p)) q).
Proof.
  intros G [V0 V1] B0 B1. rewrite <- (border_eps_comp _ _ V0) in B0. rewrite <- (border_eps_comp _ _ V1) in B1.
  destruct (corner_contains X m p G B0 B1) as [RI [C0 C1]]. split; [exact RI|]. intros L0 U0 L1 U1.
  destruct (g_len _ G) as [GL0 GL1]; cbn [fst snd] in GL0, GL1. pose proof (g_res _ G) as Hr. destruct (g_size _ G) as [S0 S1].
  assert (LL : forall L n, (L == inject_Z n * resn m)%Q -> 0 < n -> (resn m <= L)%Q).
  { intros L n -> Hn. assert (1 <= inject_Z n)%Q. { change 1%Q with (inject_Z 1). rewrite <- Zle_Qle. lia. } nra. }
  unfold lower, upper in *. cbn [fst snd] in *.
  destruct (bound_position1_ok X (fst p) (fst (len m)) (fst (pos m)) (resn m) Hr (LL _ _ GL0 S0) B0) as (_ & _ & _ & _ & Q0).
  destruct (bound_position1_ok X (snd p) (snd (len m)) (snd (pos m)) (resn m) Hr (LL _ _ GL1 S1) B1) as (_ & _ & _ & _ & Q1).
  specialize (Q0 ltac:(lra) ltac:(lra)). specialize (Q1 ltac:(lra) ltac:(lra)).
  unfold contains, contains1, bound_position in *. cbn [fst snd] in *. split; split; lra.
Qed.

Lemma either_eps m c R : (border_eps (Qabs (fst c) + Qabs R) < resn m)%Q -> (border_eps (Qabs (snd c) + Qabs R) < resn m)%Q -> circle_eps m c R.
Proof.
  intros B0 B1. destruct (circle_eps_near m c (Qabs R) (Qabs_nonneg R) B0 B1) as (E1 & E2 & E3 & E4). unfold circle_eps.
  destruct (Qlt_le_dec R 0) as [N|N].
  - pose proof (Qabs_neg R ltac:(lra)) as A.
    rewrite (border_eps_comp (fst c + R) (fst c - Qabs R)%Q), (border_eps_comp (snd c + R) (snd c - Qabs R)%Q),
      (border_eps_comp (fst c - R) (fst c + Qabs R)%Q), (border_eps_comp (snd c - R) (snd c + Qabs R)%Q) by (rewrite A; ring). auto.
  - pose proof (Qabs_pos R N) as A.
    rewrite (border_eps_comp (fst c + R) (fst c + Qabs R)%Q), (border_eps_comp (snd c + R) (snd c + Qabs R)%Q),
      (border_eps_comp (fst c - R) (fst c - Qabs R)%Q), (border_eps_comp (snd c - R) (snd c - Qabs R)%Q) by (rewrite A; ring). auto.
Qed.

End Circle.

(** At most one cell: that of the lower corner c + (R, R) of the box around the
    circle, if its centre is in the circle. *)
Theorem C100_circle : forall (E : Env), Exact E -> forall m c R, geo_ok m -> start m = (0, 0) -> (R < 0)%Q ->
  (border_eps (Qabs (fst c) - R) < resn m)%Q -> (border_eps (Qabs (snd c) - R) < resn m)%Q ->
  exists i, in_range (size m) i /\
    ((fst (lower m) < fst c + R)%Q -> (fst c + R < fst (upper m))%Q -> (snd (lower m) < snd c + R)%Q -> (snd c + R < snd (upper m))%Q ->
     contains (resn m) (centre m i) (fst c + R, snd c + R)%Q) /\
    (in_circle c R (centre m i) -> circle_visits m c R = Ok [i]) /\
    (~ in_circle c R (centre m i) -> circle_visits m c R = Ok []).
Proof.
  intros E X m c R G S HR B0 B1.
  assert (EO : circle_eps m c (- R)).
  { apply circle_eps_near; [lra| |].
    - rewrite (border_eps_comp (Qabs (fst c) + - R) (Qabs (fst c) - R)%Q); [assumption|reflexivity].
    - rewrite (border_eps_comp (Qabs (snd c) + - R) (Qabs (snd c) - R)%Q); [assumption|reflexivity]. }
  destruct EO as (E1 & E2 & E3 & E4).
  set (s := corner_index m (fadd (fst c) R, fadd (snd c) R)). set (e := corner_index m (fsub (fst c) R, fsub (snd c) R)).
  assert (EB : eps_ok m (fsub (fst c) R, fsub (snd c) R) (fadd (fst c) R, fadd (snd c) R)).
  { unfold eps_ok. cbn [fst snd].
    rewrite (border_eps_comp (fsub (fst c) R) (fst c + - R)%Q (fsub_eq X _ _)), (border_eps_comp (fsub (snd c) R) (snd c + - R)%Q (fsub_eq X _ _)).
    rewrite (border_eps_comp (fadd (fst c) R) (fst c - - R)%Q), (border_eps_comp (fadd (snd c) R) (snd c - - R)%Q); [auto| |];
      rewrite (fadd_eq X); ring. }
  destruct (box_window X m (fsub (fst c) R, fsub (snd c) R) (fadd (fst c) R, fadd (snd c) R) G EB) as (Re & Rs & A & B & _).
  { cbn [fst]. exqX X. lra. } { cbn [snd]. exqX X. lra. }
  fold e in Re, A, B. fold s in Rs, A, B.
  assert (V : circle_visits m c R = Ok (filter (circle_f m c R) [s])).
  { unfold circle_visits, circle_window. fold s e. fold (naive_size s e). apply one_cell; auto.
    intros i Ri. now apply circle_inside_ok. }
  pose proof (circle_inside_ok X m c R s G Rs) as [_ F].
  exists s. split; [exact Rs|]. split; [|split].
  - intros L0 U0 L1 U1. destruct EB as (_ & _ & E5 & E6). cbn [fst snd] in E5, E6.
    destruct (corner_contains X m (fadd (fst c) R, fadd (snd c) R) G E5 E6) as [_ [C0 C1]]. fold s in C0, C1.
    destruct (g_len _ G) as [GL0 GL1]; cbn [fst snd] in GL0, GL1. pose proof (g_res _ G) as Hr. destruct (g_size _ G) as [S0 S1].
    assert (LL : forall L n, (L == inject_Z n * resn m)%Q -> 0 < n -> (resn m <= L)%Q).
    { intros L n -> Hn. assert (1 <= inject_Z n)%Q. { change 1%Q with (inject_Z 1). rewrite <- Zle_Qle. lia. } nra. }
    unfold lower, upper in *. cbn [fst snd] in *.
    destruct (bound_position1_ok X (fadd (fst c) R) (fst (len m)) (fst (pos m)) (resn m) Hr (LL _ _ GL0 S0) E5) as (_ & _ & _ & _ & Q0).
    destruct (bound_position1_ok X (fadd (snd c) R) (snd (len m)) (snd (pos m)) (resn m) Hr (LL _ _ GL1 S1) E6) as (_ & _ & _ & _ & Q1).
    pose proof (fadd_eq X (fst c) R) as P0. pose proof (fadd_eq X (snd c) R) as P1.
    specialize (Q0 ltac:(lra) ltac:(lra)). specialize (Q1 ltac:(lra) ltac:(lra)).
    unfold contains, contains1, bound_position in *. cbn [fst snd] in *. split; split; lra.
  - intros I. rewrite V. cbn [filter]. apply F in I. now rewrite I.
  - intros I. rewrite V. cbn [filter]. destruct (circle_f m c R s); [exfalso; apply I; now apply F|reflexivity].
Qed.
Print Assumptions C100_circle.

(** On any map, moved or not, with a radius of either sign: the cells of the circle in
    the rectangle of the buffer between the cells of the two corners of its box, each
    once; or, if that is empty, the first corner, if its cell is in the circle. *)
Theorem C100_any : forall (E : Env), Exact E -> forall m c R, geo_ok m ->
  (border_eps (Qabs (fst c) + Qabs R) < resn m)%Q -> (border_eps (Qabs (snd c) + Qabs R) < resn m)%Q ->
  exists s e vs, in_range (size m) s /\ in_range (size m) e /\
    (forall p i, (p = (fst c + R, snd c + R)%Q /\ i = s) \/ (p = (fst c - R, snd c - R)%Q /\ i = e) ->
       (fst (lower m) < fst p)%Q -> (fst p < fst (upper m))%Q -> (snd (lower m) < snd p)%Q -> (snd p < snd (upper m))%Q ->
       contains (resn m) (centre m i) p) /\
    circle_visits m c R = Ok vs /\ NoDup vs /\
    forall i, In i vs <-> in_circle c R (centre m i) /\ (i = s \/ (fst s <= fst i <= fst e /\ snd s <= snd i <= snd e)).
Proof.
  intros E X m c R G B0 B1. destruct (either_eps m c R B0 B1) as (E1 & E2 & E3 & E4).
  destruct (corner_in X m (fadd (fst c) R, fadd (snd c) R) (fst c + R, snd c + R)%Q G) as [Rs Cs]; [split; apply (fadd_eq X)|exact E1|exact E2|].
  destruct (corner_in X m (fsub (fst c) R, fsub (snd c) R) (fst c - R, snd c - R)%Q G) as [Re Ce]; [split; apply (fsub_eq X)|exact E3|exact E4|].
  destruct (rectangle (circle_inside m c R) (circle_f m c R) (size m) (start m) _ _ (g_start _ G) Rs Re) as (vs & V & ND & I).
  { intros i Ri. now apply circle_inside_ok. }
  exists (corner_index m (fadd (fst c) R, fadd (snd c) R)), (corner_index m (fsub (fst c) R, fsub (snd c) R)), vs.
  split; [exact Rs|]. split; [exact Re|]. split; [intros p i [[-> ->]|[-> ->]]; assumption|]. split; [exact V|]. split; [exact ND|].
  intros i. rewrite I.
  assert (K : (i = corner_index m (fadd (fst c) R, fadd (snd c) R) \/
    (fst (corner_index m (fadd (fst c) R, fadd (snd c) R)) <= fst i <= fst (corner_index m (fsub (fst c) R, fsub (snd c) R)) /\
     snd (corner_index m (fadd (fst c) R, fadd (snd c) R)) <= snd i <= snd (corner_index m (fsub (fst c) R, fsub (snd c) R)))) -> in_range (size m) i).
  { intros [->|[K0 K1]]; [exact Rs|]. destruct Rs, Re. split; lia. }
  split; intros [A B]; (split; [|exact B]); now apply (circle_inside_ok X m c R i G (K B)).
Qed.
Print Assumptions C100_any.

(** Nothing at all for a radius of two cells or more, the corner being in the map. *)
Theorem C100_nothing : forall (E : Env), Exact E -> forall m c R, geo_ok m -> start m = (0, 0) -> (R <= - (2 * resn m))%Q ->
  (border_eps (Qabs (fst c) - R) < resn m)%Q -> (border_eps (Qabs (snd c) - R) < resn m)%Q ->
  (fst (lower m) < fst c + R)%Q -> (fst c + R < fst (upper m))%Q -> (snd (lower m) < snd c + R)%Q -> (snd c + R < snd (upper m))%Q ->
  circle_visits m c R = Ok [].
Proof.
  intros E X m c R G S HR B0 B1 L0 U0 L1 U1. pose proof (g_res _ G) as Hr.
  destruct (C100_circle E X m c R G S ltac:(lra) B0 B1) as (i & _ & C & _ & N). destruct (C L0 U0 L1 U1) as [[C0 C0'] [C1 C1']]. cbn [fst snd] in *.
  apply N. unfold in_circle. intros K.
  assert (H2 : (resn m / 2 == (1#2) * resn m)%Q) by field. rewrite H2 in C0, C1. clear C0' C1'.
  assert (X0 : (fst (centre m i) - fst c <= (3#4) * R)%Q) by (clear - C0 HR Hr; lra).
  assert (Y0 : (snd (centre m i) - snd c <= (3#4) * R)%Q) by (clear - C1 HR Hr; lra).
  set (x := (fst (centre m i) - fst c)%Q) in *. set (y := (snd (centre m i) - snd c)%Q) in *.
  assert (Q0 : forall z, (z <= (3#4) * R)%Q -> ((9#16) * (R * R) <= z * z)%Q) .
  { intros z Hz. assert (0 <= ((3#4) * R - z) * (- ((3#4) * R) - z))%Q by (apply Qmult_le_0_compat; lra).
    assert (((3#4) * R - z) * (- ((3#4) * R) - z) == z * z - (9#16) * (R * R))%Q by ring. lra. }
  pose proof (Q0 x X0). pose proof (Q0 y Y0). assert (0 < R * R)%Q by (assert (0 < (- R) * (- R))%Q by (apply Qmult_lt_0_compat; lra); lra). lra.
Qed.
Print Assumptions C100_nothing.

(** ** Ellipses *)

(** Rounding is symmetric around 0. *)
Definition symmetric (E : Env) : Prop := forall q, rnd (- q) = (- rnd q)%Q.

Lemma Zrne_opp n d : 0 < d -> Zrne (- n) d = - Zrne n d.
Proof.
  intros D. unfold Zrne. destruct (Z.eq_dec (n mod d) 0) as [K|K].
  - rewrite Z.mod_opp_l_z, Z.div_opp_l_z, K by lia. cbn [Z.mul]. rewrite (proj2 (Z.compare_lt_iff 0 d) D). reflexivity.
  - rewrite Z.mod_opp_l_nz, Z.div_opp_l_nz by lia. pose proof (Z.mod_pos_bound n d D).
    destruct (Z.compare_spec (2 * (n mod d)) d) as [J|J|J]; destruct (Z.compare_spec (2 * (d - n mod d)) d) as [J'|J'|J']; try lia.
    replace (- (n / d) - 1) with (- (n / d + 1)) by lia. rewrite Z.even_opp, Z.even_add. cbn [Z.even].
    destruct (Z.even (n / d)); cbn; lia.
Qed.

Lemma rne_opp p q : rne p (- q) = (- rne p q)%Q.
Proof.
  unfold rne. cbn [Qopp Qnum Qden]. destruct (Qnum q =? 0) eqn:K.
  - assert (- Qnum q =? 0 = true) as -> by lia. reflexivity.
  - assert (- Qnum q =? 0 = false) as -> by lia.
    assert (Qlog2 (- q) = Qlog2 q) as -> by (unfold Qlog2; cbn [Qopp Qnum Qden]; now rewrite Z.abs_opp).
    destruct (0 <=? Qlog2 q - (p - 1)) eqn:J.
    + rewrite Zrne_opp by (pose proof (Z.pow_pos_nonneg 2 (Qlog2 q - (p - 1))); lia). unfold inject_Z, Qopp. cbn [Qnum Qden]. f_equal. lia.
    + rewrite Z.mul_opp_l, Zrne_opp by lia.
      change (Qred (- (Zrne (Qnum q * 2 ^ (- (Qlog2 q - (p - 1)))) (Zpos (Qden q)) # Z.to_pos (2 ^ (- (Qlog2 q - (p - 1))))))
        = (- Qred (Zrne (Qnum q * 2 ^ (- (Qlog2 q - (p - 1)))) (Zpos (Qden q)) # Z.to_pos (2 ^ (- (Qlog2 q - (p - 1))))))%Q).
      apply Qred_opp.
Qed.

Lemma symmetric_cases : symmetric exact_wrap /\ symmetric exact_clamp /\ forall p, symmetric (binary64 p).
Proof. split; [|split]; [intros q; apply Qred_opp..|intros p q; apply rne_opp]. Qed.

Section Ellipse.
Context {E : Env} (Y : symmetric E).

Lemma mul_opp_r a b : fmul a (- b) = (- fmul a b)%Q.
Proof. unfold fmul. rewrite <- Y. f_equal. destruct a as [an ad], b as [bn bd]. unfold Qmult, Qopp. cbn [Qnum Qden]. f_equal. lia. Qed.

Lemma mul_opp_opp a : fmul (- a) (- a) = fmul a a.
Proof. unfold fmul. f_equal. destruct a as [an ad]. unfold Qmult, Qopp. cbn [Qnum Qden]. f_equal. lia. Qed.

Lemma ellipse_opp sqr m c L cs sn :
  ellipse_visits sqr m c (- fst L, snd L)%Q cs sn = ellipse_visits sqr m c L cs sn /\
  ellipse_visits sqr m c (fst L, - snd L)%Q cs sn = ellipse_visits sqr m c L cs sn.
Proof.
  unfold ellipse_visits, ellipse_window, ellipse_inside, rbind. cbn [fst snd]. rewrite !(mul_opp_r _ (fst L)), !(mul_opp_r _ (snd L)), !mul_opp_opp. split; reflexivity.
Qed.
End Ellipse.

(** The signs of the axes do not matter, with exact arithmetic and with doubles. *)
Theorem C100_ellipse : forall (E : Env), symmetric E -> forall sqr m c a b cs sn,
  ellipse_visits sqr m c (- a, b)%Q cs sn = ellipse_visits sqr m c (a, b)%Q cs sn /\
  ellipse_visits sqr m c (a, - b)%Q cs sn = ellipse_visits sqr m c (a, b)%Q cs sn /\
  ellipse_visits sqr m c (- a, - b)%Q cs sn = ellipse_visits sqr m c (a, b)%Q cs sn.
Proof.
  intros E Y sqr m c a b cs sn. destruct (ellipse_opp Y sqr m c (a, b) cs sn) as [A B]. split; [exact A|]. split; [exact B|].
  destruct (ellipse_opp Y sqr m c (a, - b)%Q cs sn) as [C _]. exact (eq_trans C B).
Qed.
Print Assumptions C100_ellipse.

(** ** Spirals *)

(** At most half a cell: the cell of the centre, as for radius 0. One cell or more:
    the number of rings is the conversion of a negative number to unsigned int. *)
Theorem C100_spiral : forall (E : Env), real_or_double E -> forall m c R, (0 < resn m)%Q ->
  ((R <= - resn m)%Q -> forall fuel, spiral_visits m c R fuel = Fault BadCast) /\
  (forall i, (- ((1#2) * resn m) <= R)%Q -> (R <= 0)%Q -> getIndex m c = (true, i) -> in_range (size m) i ->
     forall fuel, (2 <= fuel)%nat -> spiral_visits m c R fuel = Ok [i]).
Proof.
  intros E RD m c R Hr. split.
  - intros H fuel. unfold spiral_visits, spiral_new.
    assert (D : (fdiv R (resn m) <= - 1)%Q).
    { assert (D0 : (R / resn m <= - 1)%Q). { apply Qle_shift_div_r; lra. }
      unfold fdiv. destruct RD as [X|[p ->]]; [rewrite (X _); exact D0|].
      cbn [rnd binary64]. pose proof (rne_mono 53 _ _ ltac:(lia) D0) as MO. exact MO. }
    assert (K : Qceiling (fdiv R (resn m)) <= -1). { apply Qceiling_resp_le in D. exact D. }
    destruct (Qceiling (fdiv R (resn m)) <? 0) eqn:J; [reflexivity|lia].
  - intros i H0 H1 GI RI fuel F. unfold spiral_visits, spiral_new.
    assert (K : Qceiling (fdiv R (resn m)) = 0).
    { assert (D0 : (- (1#2) <= R / resn m)%Q) by (apply Qle_shift_div_l; lra).
      assert (D1 : (R / resn m <= 0)%Q) by (apply Qle_shift_div_r; lra).
      assert (D : (- (1#2) <= fdiv R (resn m) /\ fdiv R (resn m) <= 0)%Q).
      { unfold fdiv. destruct RD as [X|[p ->]]; [rewrite (X _); auto|]. cbn [rnd binary64].
        split; [exact (rne_mono 53 _ _ ltac:(lia) D0)|exact (rne_mono 53 _ _ ltac:(lia) D1)]. }
      destruct D as [L U]. apply Qceiling_resp_le in L, U. change (Qceiling (- (1#2))) with 0 in L. change (Qceiling 0) with 0 in U. lia. }
    rewrite K, GI. cbn [snd Z.ltb Z.leb Z.compare orb].
    assert (index_in_range i (size m) = true) as -> by now apply index_in_range_iff.
    destruct fuel as [|[|f]]; [lia|lia|]. reflexivity.
Qed.
Print Assumptions C100_spiral.

(** Circles of radius -3/4: one in the middle of the map, one over its lower corner,
    where the cell of the corner is left; the latter with radius 3/4. An ellipse, a
    spiral. On a map that was moved a circle may keep more than one cell. *)
Example C100_case : geo_ok sample0 /\ start sample0 = (0, 0) /\
  circle_visits (E := exact_wrap) sample0 (1#2, -1#1)%Q (-3#4) = Ok [] /\
  circle_visits (E := exact_wrap) sample0 (-1#2, -2#1)%Q (-3#4) = Ok [(4, 3)] /\
  circle_visits (E := exact_wrap) sample0 (-1#2, -2#1)%Q (3#4) = Ok [(3, 3); (4, 2); (4, 3)] /\
  ellipse_visits (E := exact_wrap) qsqrt sample0 (1#2, -1#1)%Q (-5#2, 3#4)%Q (4#5) (3#5) = Ok [(0, 0); (1, 1); (2, 1); (2, 2); (3, 2); (4, 3)] /\
  spiral_visits (E := exact_wrap) sample0 (1#2, -1#1)%Q (-1#4) 9 = Ok [snd (getIndex (E := exact_wrap) sample0 (1#2, -1#1)%Q)] /\
  geo_ok sample /\ circle_visits (E := exact_wrap) sample (-1#1, -2#1)%Q (-3#2) = Ok [(2, 1); (2, 2); (3, 1); (3, 2)].
Proof. split; [exact sample0_geo|]. do 6 (split; [vm_compute; reflexivity|]). split; [exact sample_geo|vm_compute; reflexivity]. Qed.

Example C100_symmetric : symmetric exact_wrap /\ symmetric exact_clamp /\ forall p, symmetric (binary64 p).
Proof. exact symmetric_cases. Qed.
