(** Property C29: when circles and ellipses go wrong on a moved map. *)
From Coq Require Import ZArith QArith Qabs Lqa String List Bool Lia.
From Verif Require Import Base BaseLemmas Mat GridMapMath GridIter CostMap Iterators Spec GeoLemmas SubmapProofs IterProofs FilterProofs PropWindow PropNegative Samples.
Import ListNotations.
Open Scope Z_scope.

(** Buffer indices [s] and [e] of the corners of a box: the box does not reach over the
    seam, where the buffer goes from its last row or column to its first. *)
Definition off_seam (s e : idx) : Prop := fst s <= fst e /\ snd s <= snd e.

(** [i] is the cell of [p], if [p] is in the map and not on its border. *)
Definition cell_of (m : cmap) (p : vec) (i : idx) : Prop := in_range (size m) i /\
  ((fst (lower m) < fst p)%Q -> (fst p < fst (upper m))%Q -> (snd (lower m) < snd p)%Q -> (snd p < snd (upper m))%Q ->
   contains (resn m) (centre m i) p).

Section Seam.
Context {E : Env} (X : Exact E).

Lemma seam_axis n st s e i : 0 <= st < n -> 0 <= s < n -> 0 <= e < n -> 0 <= i < n -> s <= e ->
  (s - st) mod n <= (i - st) mod n <= (e - st) mod n -> s <= i <= e.
Proof.
  intros Hst Hs He Hi L.
  assert (M : forall x, 0 <= x < n -> (x - st) mod n = if st <=? x then x - st else x - st + n).
  { intros x Hx. destruct (st <=? x) eqn:K; [apply Z.mod_small; lia|].
    rewrite <- (Z.mod_add _ 1) by lia. rewrite Z.mod_small by lia. lia. }
  rewrite !M by lia. destruct (Z.leb_spec st s), (Z.leb_spec st i), (Z.leb_spec st e); lia.
Qed.

Lemma seam_box m pt pb qt qb ins f (P : idx -> Prop) : geo_ok m -> veq pt qt -> veq pb qb -> eps_ok m qt qb -> (fst qb <= fst qt)%Q -> (snd qb <= snd qt)%Q ->
  (forall i, in_range (size m) i -> ins i = Ok (f i)) ->
  (forall i, in_range (size m) i -> (f i = true <-> P i)) ->
  (forall i, in_range (size m) i -> P i ->
    (fst qb <= fst (centre m i))%Q /\ (fst (centre m i) <= fst qt)%Q /\
    (snd qb <= snd (centre m i))%Q /\ (snd (centre m i) <= snd qt)%Q) ->
  exists s e vs, cell_of m qt s /\ cell_of m qb e /\
    filt_visits ins (size m) (start m) (corner_index m pt) (naive_size (corner_index m pt) (corner_index m pb)) = Ok vs /\ NoDup vs /\
    (off_seam s e -> forall i, In i vs <-> in_range (size m) i /\ P i) /\
    (~ off_seam s e -> forall i, In i vs <-> i = s /\ P i).
Proof.
  intros G VT VB (E1 & E2 & E3 & E4) O1 O2 HI HF HB.
  destruct (corner_in X m pt qt G VT E1 E2) as [Rs Cs]. destruct (corner_in X m pb qb G VB E3 E4) as [Re Ce].
  destruct (rectangle ins f (size m) (start m) _ _ (g_start _ G) Rs Re HI) as (vs & V & ND & I).
  exists (corner_index m pt), (corner_index m pb), vs.
  split; [now split|]. split; [now split|]. split; [exact V|]. split; [exact ND|].
  assert (BW : forall i, in_range (size m) i -> P i ->
    fst (world_index m (corner_index m pt)) <= fst (world_index m i) <= fst (world_index m (corner_index m pb)) /\
    snd (world_index m (corner_index m pt)) <= snd (world_index m i) <= snd (world_index m (corner_index m pb))).
  { intros i Ri Pi. destruct (HB i Ri Pi) as (A1 & A2 & A3 & A4). destruct VT as [VT0 VT1], VB as [VB0 VB1].
    destruct (box_window X m pt pb G) as (_ & _ & _ & _ & K); [|rewrite VT0, VB0; exact O1|rewrite VT1, VB1; exact O2|].
    - unfold eps_ok. rewrite (border_eps_comp _ _ VT0), (border_eps_comp _ _ VT1), (border_eps_comp _ _ VB0), (border_eps_comp _ _ VB1). auto.
    - apply K; auto; [rewrite VB0|rewrite VT0|rewrite VB1|rewrite VT1]; assumption. }
  set (s := corner_index m pt) in *. set (e := corner_index m pb) in *. pose proof (g_start _ G) as [S0 S1].
  split.
  - intros [OS0 OS1] i. rewrite I. split.
    + intros [F K]. assert (Ri : in_range (size m) i).
      { destruct K as [->|[K0 K1]]; [exact Rs|]. destruct Rs, Re. split; lia. }
      split; [exact Ri|]. now apply HF.
    + intros [Ri Pi]. split; [now apply HF|]. right. destruct (BW i Ri Pi) as [B0 B1]. destruct Rs, Re, Ri. unfold world_index in B0, B1. cbn [fst snd] in B0, B1.
      split; [apply (seam_axis (fst (size m)) (fst (start m)))|apply (seam_axis (snd (size m)) (snd (start m)))]; auto.
  - intros OS i. rewrite I. split.
    + intros [F [->|[K0 K1]]]; [split; [reflexivity|now apply HF]|]. exfalso. apply OS. unfold off_seam. lia.
    + intros [-> Pi]. split; [now apply HF|now left].
Qed.
End Seam.

(** C29. On any map, moved or not: right if the box around the circle is off the seam;
    otherwise the cell of its upper corner, or nothing. *)
Theorem C29_circle_seam : forall (E : Env), Exact E -> forall m c R, geo_ok m -> (0 <= R)%Q ->
  (border_eps (Qabs (fst c) + R) < resn m)%Q -> (border_eps (Qabs (snd c) + R) < resn m)%Q ->
  exists s e is, cell_of m (fst c + R, snd c + R)%Q s /\ cell_of m (fst c - R, snd c - R)%Q e /\
    circle_visits m c R = Ok is /\ NoDup is /\
    (off_seam s e -> forall i, In i is <-> in_range (size m) i /\ in_circle c R (centre m i)) /\
    (~ off_seam s e -> forall i, In i is <-> i = s /\ in_circle c R (centre m i)).
Proof.
  intros E X m c R G HR B1 B2. pose proof (circle_eps_near m c R HR B1 B2) as EO.
  unfold circle_visits, circle_window.
  apply (seam_box X m (fadd (fst c) R, fadd (snd c) R) (fsub (fst c) R, fsub (snd c) R) (fst c + R, snd c + R)%Q (fst c - R, snd c - R)%Q
    (circle_inside m c R) (circle_f m c R)); auto.
  - split; apply (fadd_eq X).
  - split; apply (fsub_eq X).
  - cbn [fst]. lra.
  - cbn [snd]. lra.
  - intros i Hi. now apply circle_inside_ok.
  - intros i Hi. now apply circle_inside_ok.
  - intros i Hi Hc. cbn [fst snd]. unfold in_circle in Hc.
    set (x := (fst (centre m i) - fst c)%Q) in *. set (y := (snd (centre m i) - snd c)%Q) in *.
    pose proof (square_nonneg x). pose proof (square_nonneg y).
    destruct (square_abs x R HR ltac:(lra)). destruct (square_abs y R HR ltac:(lra)). unfold x, y in *. lra.
Qed.
Print Assumptions C29_circle_seam.

Theorem C29_ellipse_seam : forall (E : Env), Exact E -> forall sqr, sqrt_approx sqr -> forall m c L cs sn,
  geo_ok m -> (0 < fst L)%Q -> (0 < snd L)%Q -> (9#10 <= cs * cs + sn * sn)%Q -> (cs * cs + sn * sn <= 11#10)%Q ->
  (border_eps (Qabs (fst c) + 2 * (fst L + snd L)) < resn m)%Q -> (border_eps (Qabs (snd c) + 2 * (fst L + snd L)) < resn m)%Q ->
  exists h s e is, (0 <= fst h)%Q /\ (0 <= snd h)%Q /\
    (forall p, in_ellipse c L cs sn p -> (Qabs (fst p - fst c) <= fst h)%Q /\ (Qabs (snd p - snd c) <= snd h)%Q) /\
    cell_of m (fst c + fst h, snd c + snd h)%Q s /\ cell_of m (fst c - fst h, snd c - snd h)%Q e /\
    ellipse_visits sqr m c L cs sn = Ok is /\ NoDup is /\
    (off_seam s e -> forall i, In i is <-> in_range (size m) i /\ in_ellipse c L cs sn (centre m i)) /\
    (~ off_seam s e -> forall i, In i is <-> i = s /\ in_ellipse c L cs sn (centre m i)).
Proof.
  intros E X sqr SQ m c L cs sn G P1 P2 HN HN' B1 B2.
  pose proof (ellipse_eps_ok X sqr m c L cs sn SQ P1 P2 HN' B1 B2) as (E1 & E2 & E3 & E4). cbn [fst snd] in *.
  destruct (ellipse_half_nonneg X sqr L cs sn SQ) as [H0 H1]. set (h := ellipse_half sqr L cs sn) in *.
  exists h.
  destruct (seam_box X m (fadd (fst c) (fst h), fadd (snd c) (snd h)) (fsub (fst c) (fst h), fsub (snd c) (snd h))
    (fst c + fst h, snd c + snd h)%Q (fst c - fst h, snd c - snd h)%Q (ellipse_inside m c L cs sn) (ellipse_f m c L cs sn)
    (fun i => in_ellipse c L cs sn (centre m i)) G) as (s & e & vs & CS & CE & V & ND & A & B).
  - split; apply (fadd_eq X).
  - split; apply (fsub_eq X).
  - unfold eps_ok. cbn [fst snd].
    rewrite <- (border_eps_comp _ _ (fadd_eq X (fst c) (fst h))), <- (border_eps_comp _ _ (fadd_eq X (snd c) (snd h))),
      <- (border_eps_comp _ _ (fsub_eq X (fst c) (fst h))), <- (border_eps_comp _ _ (fsub_eq X (snd c) (snd h))). auto.
  - cbn [fst]. lra.
  - cbn [snd]. lra.
  - intros i Hi. now apply ellipse_inside_ok.
  - intros i Hi. now apply ellipse_inside_ok.
  - intros i Hi Hc. cbn [fst snd]. destruct (ellipse_box X sqr c L cs sn _ SQ P1 P2 HN Hc) as (A1 & A2 & A3 & A4). auto.
  - exists s, e, vs. split; [exact H0|]. split; [exact H1|]. split.
    { intros p Hp. destruct (ellipse_box X sqr c L cs sn p SQ P1 P2 HN Hp) as (A1 & A2 & A3 & A4). fold h in A1, A2, A3, A4.
      split; apply Qabs_Qle_condition; lra. }
    split; [exact CS|]. split; [exact CE|]. split; [exact V|]. auto.
Qed.
Print Assumptions C29_ellipse_seam.

(** The moved map of C29_circle_moved_refuted: a circle and an ellipse off the seam, and
    a circle over it, of which the cell of the upper corner is left. *)
Example C29_seam_case : geo_ok sample /\ start sample = (3, 2) /\
  circle_visits (E := exact_wrap) sample (-3#2, -11#4)%Q (1#2) = Ok [(0, 1); (1, 0); (1, 1); (2, 1)] /\
  ellipse_visits (E := exact_wrap) qsqrt sample (-3#2, -11#4)%Q (1#2, 1#2)%Q 1 0 = Ok [(1, 1)] /\
  circle_visits (E := exact_wrap) sample (-1#1, -5#4)%Q (5#8) = Ok [(4, 2)] /\
  in_range (size sample) (0, 2) /\ in_circle (-1#1, -5#4)%Q (5#8) (centre sample (0, 2)).
Proof. split; [exact sample_geo|]. conj_vm. Qed.
