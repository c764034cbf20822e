(** Properties C28-C31: circle, ellipse and polygon iterators. *)
From Coq Require Import ZArith QArith Qabs Qround String List Bool Lia Lqa.
From Verif Require Import Base Mat GridMapMath GridIter CostMap Iterators Spec BaseLemmas CoreProofs FilterProofs Samples.
Import ListNotations.
Open Scope Z_scope.

(** C28. *)
Theorem C28_circle : forall (E : Env), Exact E -> forall m c R,
  geo_ok m -> start m = (0, 0) -> (0 <= R)%Q ->
  (border_eps (Qabs (fst c) + R) < resn m)%Q -> (border_eps (Qabs (snd c) + R) < resn m)%Q ->
  exists is, circle_visits m c R = Ok is /\ NoDup is /\
    forall i, In i is <-> in_range (size m) i /\ in_circle c R (centre m i).
Proof. intros. apply circle_final; auto. now apply circle_eps_near. Qed.
Print Assumptions C28_circle.

(** A circle over the upper left corner of the map; one containing no centre; one
    far outside. *)
Example C28_case : geo_ok sample0 /\ start sample0 = (0, 0) /\
  (border_eps (Qabs (3#2) + (3#4)) < resn sample0)%Q /\ (border_eps (Qabs (-1#4) + (3#4)) < resn sample0)%Q /\
  circle_visits (E := exact_wrap) sample0 (3#2, -1#4)%Q (3#4) = Ok [(0, 0); (0, 1); (1, 0); (1, 1)] /\
  circle_visits (E := exact_wrap) sample0 (1#2, -1#1)%Q (1#8) = Ok [] /\
  circle_visits (E := exact_wrap) sample0 (-9#1, 7#1)%Q (1#1) = Ok [].
Proof. split; [exact sample0_geo|]. conj_vm. Qed.

(** C29. On a moved map both iterators never leave the shape, but omit cells. *)
Theorem C29_moved_sound : forall (E : Env), Exact E -> forall m c, geo_ok m ->
  (forall R, (0 <= R)%Q -> (border_eps (Qabs (fst c) + R) < resn m)%Q -> (border_eps (Qabs (snd c) + R) < resn m)%Q ->
     exists is, circle_visits m c R = Ok is /\ NoDup is /\
       forall i, In i is -> in_range (size m) i /\ in_circle c R (centre m i)) /\
  (forall sqr L cs sn, sqrt_approx sqr -> (0 < fst L)%Q -> (0 < snd L)%Q -> (cs * cs + sn * sn <= 11#10)%Q ->
     (border_eps (Qabs (fst c) + 2 * (fst L + snd L)) < resn m)%Q -> (border_eps (Qabs (snd c) + 2 * (fst L + snd L)) < resn m)%Q ->
     exists is, ellipse_visits sqr m c L cs sn = Ok is /\ NoDup is /\
       forall i, In i is -> in_range (size m) i /\ in_ellipse c L cs sn (centre m i)).
Proof.
  intros E X m c G. split.
  - intros. apply circle_sound; auto. now apply circle_eps_near.
  - intros. apply ellipse_sound; auto. now apply ellipse_eps_ok.
Qed.
Print Assumptions C29_moved_sound.

(** A square root good enough for [sqrt_approx]. *)
Definition qsqrt (x : Q) : Q := (Z.sqrt (10000 * Qnum x * Zpos (Qden x)) # (100 * Qden x)).

Lemma qsqrt_ok : sqrt_approx qsqrt.
Proof.
  intros [n d] H. unfold Qle in H. cbn in H. assert (Hn : 0 <= n) by lia. clear H.
  unfold qsqrt. cbn [Qnum Qden].
  assert (Hm : 0 <= 10000 * n * Zpos d) by (apply Z.mul_nonneg_nonneg; lia).
  pose proof (Z.sqrt_spec _ Hm) as [S1 S2]. pose proof (Z.sqrt_nonneg (10000 * n * Zpos d)) as S3.
  assert (S4 : n = 0 \/ 100 <= Z.sqrt (10000 * n * Zpos d)).
  { destruct (Z.eq_dec n 0); [now left|right]. apply Z.sqrt_le_square; auto; [lia|]. nia. }
  set (s := Z.sqrt (10000 * n * Zpos d)) in *. clearbody s.
  assert (B1 : 10000 * n * Zpos d * 9 <= s * s * 10).
  { destruct S4 as [->|S4]; [nia|]. nia. }
  unfold Qle, Qmult. cbn [Qnum Qden]. rewrite !Pos2Z.inj_mul.
  assert (0 < Zpos d) by lia. repeat split; [lia| |]; nia.
Qed.

Theorem C29_circle_moved_refuted : exists m c R is i, geo_ok m /\ reg_ok' m /\ (0 <= R)%Q /\
  (border_eps (Qabs (fst c) + R) < resn m)%Q /\ (border_eps (Qabs (snd c) + R) < resn m)%Q /\
  circle_visits (E := exact_wrap) m c R = Ok is /\ in_range (size m) i /\ in_circle c R (centre m i) /\ ~ In i is.
Proof.
  exists sample, (-1#1, -2#1)%Q, (1#2)%Q, [], (0, 0).
  split; [exact sample_geo|]. split; [exact sample_reg|]. conj_vm.
Qed.
Print Assumptions C29_circle_moved_refuted.

Theorem C29_ellipse_moved_refuted : exists m c L is i, geo_ok m /\ reg_ok' m /\ (0 < fst L)%Q /\ (0 < snd L)%Q /\
  (border_eps (Qabs (fst c) + 2 * (fst L + snd L)) < resn m)%Q /\ (border_eps (Qabs (snd c) + 2 * (fst L + snd L)) < resn m)%Q /\
  ellipse_visits (E := exact_wrap) qsqrt m c L 1 0 = Ok is /\ in_range (size m) i /\ in_ellipse c L 1 0 (centre m i) /\ ~ In i is.
Proof.
  exists sample, (-1#1, -2#1)%Q, (1#1, 3#4)%Q, [], (0, 0).
  split; [exact sample_geo|]. split; [exact sample_reg|]. conj_vm.
Qed.
Print Assumptions C29_ellipse_moved_refuted.

(** C30. [cs], [sn] need only be near a cosine and sine, [sqr] near the square
    root. *)
Theorem C30_ellipse : forall (E : Env), Exact E -> forall sqr, sqrt_approx sqr -> forall m c L cs sn,
  geo_ok m -> start m = (0, 0) -> (0 < fst L)%Q -> (0 < snd L)%Q ->
  (9#10 <= cs * cs + sn * sn)%Q -> (cs * cs + sn * sn <= 11#10)%Q ->
  (border_eps (Qabs (fst c) + 2 * (fst L + snd L)) < resn m)%Q -> (border_eps (Qabs (snd c) + 2 * (fst L + snd L)) < resn m)%Q ->
  exists is, ellipse_visits sqr m c L cs sn = Ok is /\ NoDup is /\
    forall i, In i is <-> in_range (size m) i /\ in_ellipse c L cs sn (centre m i).
Proof. intros. apply ellipse_final; auto. now apply ellipse_eps_ok. Qed.
Print Assumptions C30_ellipse.

(** A slim ellipse turned by the angle with cosine 4/5 and sine 3/5. *)
Example C30_case : sqrt_approx qsqrt /\
  ellipse_visits (E := exact_wrap) qsqrt sample0 (1#2, -1#1)%Q (5#2, 3#4)%Q (4#5) (3#5) = Ok [(0, 0); (1, 1); (2, 1); (2, 2); (3, 2); (4, 3)] /\
  (border_eps (Qabs (1#2) + 2 * ((5#2) + (3#4))) < resn sample0)%Q /\ (border_eps (Qabs (-1#1) + 2 * ((5#2) + (3#4))) < resn sample0)%Q.
Proof. split; [exact qsqrt_ok|]. conj_vm. Qed.

(** C31. *)
Theorem C31_polygon : forall (E : Env), Exact E -> forall m vs, geo_ok m -> vs <> [] ->
  (forall v, In v vs -> (border_eps (fst v) < resn m)%Q /\ (border_eps (snd v) < resn m)%Q) ->
  exists is, polygon_visits m vs = Ok is /\ NoDup is /\
    forall i, In i is <-> in_range (size m) i /\ in_polygon vs (centre m i).
Proof. exact @polygon_final. Qed.
Print Assumptions C31_polygon.

(** Without vertices the iterator reads vertex 0 of an empty array. *)
Theorem C31_no_vertices : forall (E : Env) m, polygon_visits m [] = Fault OutOfBounds.
Proof. reflexivity. Qed.
Print Assumptions C31_no_vertices.

(** A non-convex polygon (an arrow head) on a map with start index (3, 2). *)
Example C31_case : geo_ok sample /\ start sample = (3, 2) /\
  polygon_visits (E := exact_wrap) sample [(0, -1#1); (-9#4, -2#1); (0, -3#1); (-1#1, -2#1)]%Q = Ok [(4, 2); (4, 1); (0, 3); (0, 0); (1, 3); (1, 0)].
Proof. split; [exact sample_geo|]. conj_vm. Qed.
