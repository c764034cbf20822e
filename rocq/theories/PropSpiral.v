(** Properties C34, C35: the spiral iterator. *)
From Coq Require Import ZArith QArith Qabs Qround String List Bool Sorting Lia Lqa.
From Verif Require Import Base Mat GridMapMath GridIter CostMap Iterators Spec BaseLemmas GeoLemmas CoreProofs RingProofs SpiralProofs Samples.
Import ListNotations.
Open Scope Z_scope.

(** C34. The ring walk of distance d ends and lists the offsets p with
    d <= |p| < d + 1, each once. *)
Theorem C34_ring : forall d, 1 <= d -> exists l, ring d = Ok l /\ NoDup l /\
  forall p, In p l <-> ring_no (0, 0) p = d.
Proof.
  intros d Hd. destruct (ring_final d Hd) as (l & A & B & C). exists l. split; [exact A|]. split; [exact B|].
  intros p. rewrite C, (ring_no_iff (0, 0) p d) by lia. unfold offset. cbn [fst snd]. rewrite !Z.sub_0_r. now destruct p.
Qed.
Print Assumptions C34_ring.

Example C34_case : ring 1 = Ok [(1, 0); (1, 1); (0, 1); (-1, 1); (-1, 0); (-1, -1); (0, -1); (1, -1)] /\
  match ring 5 with Ok l => List.length l | _ => 0%nat end = 40%nat.
Proof. conj_vm. Qed.

(** C35. On an unmoved map with the centre inside: if each ring but the outermost has a
    cell (of the last but one, within the radius), the loop ends, and lists every
    cell whose centre is within the radius, each once, from inner to outer rings,
    and none further out than the radius and three quarters of a cell. If one
    of these rings is empty, the loop reads from an empty vector. *)
Theorem C35_spiral : forall (E : Env), Exact E -> forall m c R ic,
  geo_ok m -> start m = (0, 0) -> in_range (size m) ic -> contains (resn m) (centre m ic) c ->
  (0 <= R)%Q -> let nr := Qceiling (R / resn m) in nr < 2 ^ 32 ->
  let filled d := exists q, in_range (size m) q /\ ring_no ic q = d /\ (d = nr - 1 -> in_circle c R (centre m q)) in
  exists N,
  ((forall d, 1 <= d < nr -> filled d) ->
   exists vs, (forall fuel, (N <= fuel)%nat -> spiral_visits m c R fuel = Ok vs) /\ NoDup vs /\
     (forall i, in_range (size m) i -> in_circle c R (centre m i) -> In i vs) /\
     (forall i, In i vs -> in_range (size m) i /\ in_circle c (R + (3#4) * resn m) (centre m i)) /\
     StronglySorted (fun i j => ring_no ic i <= ring_no ic j) vs) /\
  ((exists d, 1 <= d < nr /\ ~ filled d) ->
   forall fuel, (N <= fuel)%nat -> spiral_visits m c R fuel = Fault OutOfBounds).
Proof. exact @spiral_final. Qed.
Print Assumptions C35_spiral.

(** 9 x 9 cells of 1 m around the origin. *)
Definition board : cmap := after (setGeometry (E := exact_wrap) (9#1, 9#1)%Q 1 (0, 0)%Q) (new_map ["a"%string]).
Lemma board_geo : geo_ok board. Proof. apply geo_okb_ok. vm_compute. reflexivity. Qed.
Lemma board_reg : reg_ok' board. Proof. apply reg_okb_ok. vm_compute. reflexivity. Qed.

Example C35_case : geo_ok board /\ start board = (0, 0) /\ contains (resn board) (centre board (4, 4)) (0, 0)%Q /\
  spiral_visits (E := exact_wrap) board (0, 0)%Q (3#2) 12 =
    Ok [(4, 4); (5, 3); (4, 3); (3, 3); (3, 4); (3, 5); (4, 5); (5, 5); (5, 4)].
Proof. split; [exact board_geo|]. conj_vm. Qed.

(** On any map, moved or not, exactly: rings are counted in the buffer, and in the two
    outermost rings a cell is taken when the place it would have in the map before
    any move is within the radius. *)
Theorem C35_moved : forall (E : Env), Exact E -> forall m c R ic,
  geo_ok m -> in_range (size m) ic -> contains (resn m) (centre m ic) c ->
  (0 <= R)%Q -> let nr := Qceiling (R / resn m) in nr < 2 ^ 32 ->
  let near q := in_circle c R (centre (set_start m (0, 0)) q) in
  let filled d := exists q, in_range (size m) q /\ ring_no ic q = d /\ (d = nr - 1 -> near q) in
  exists N,
  ((forall d, 1 <= d < nr -> filled d) ->
   exists vs, (forall fuel, (N <= fuel)%nat -> spiral_visits m c R fuel = Ok vs) /\ NoDup vs /\
     (forall i, In i vs <-> i = ic \/
        (in_range (size m) i /\ 1 <= ring_no ic i <= nr /\ (nr - 1 <= ring_no ic i -> near i))) /\
     StronglySorted (fun i j => ring_no ic i <= ring_no ic j) vs) /\
  ((exists d, 1 <= d < nr /\ ~ filled d) ->
   forall fuel, (N <= fuel)%nat -> spiral_visits m c R fuel = Fault OutOfBounds).
Proof. exact @spiral_any. Qed.
Print Assumptions C35_moved.

(** The board moved by one cell: the spiral starts at the centre of the map, (5, 4), and
    visits the cells around (4, 4), the centre of the buffer. *)
Definition shifted : cmap := set_start board (1, 0).
Lemma shifted_geo : geo_ok shifted. Proof. apply geo_okb_ok. vm_compute. reflexivity. Qed.

Example C35_moved_case : geo_ok shifted /\ contains (resn shifted) (centre shifted (5, 4)) (0, 0)%Q /\
  spiral_visits (E := exact_wrap) shifted (0, 0)%Q (3#2) 30 =
    Ok [(5, 4); (5, 3); (4, 3); (4, 4); (4, 5); (5, 5); (3, 3); (3, 4); (3, 5)].
Proof. split; [exact shifted_geo|]. conj_vm. Qed.

(** The circle reaches beyond the map: undefined behaviour. *)
Theorem C35_empty_ring_refuted : exists m c R, geo_ok m /\ reg_ok' m /\ start m = (0, 0) /\ inside m c /\ (0 < R)%Q /\
  forall fuel, (22 <= fuel)%nat -> spiral_visits (E := exact_wrap) m c R fuel = Fault OutOfBounds.
Proof.
  exists sample0, (1#2, -1#1)%Q, (2#1)%Q. split; [exact sample0_geo|]. split; [exact sample0_reg|].
  split; [reflexivity|]. split; [conj_vm|]. split; [reflexivity|]. intros fuel Hf.
  do 22 (destruct fuel as [|fuel]; [lia|]). vm_compute. reflexivity.
Qed.
Print Assumptions C35_empty_ring_refuted.

(** A visited cell outside the radius. *)
Theorem C35_radius_refuted : exists m c R vs i, geo_ok m /\ reg_ok' m /\ start m = (0, 0) /\ inside m c /\
  spiral_visits (E := exact_wrap) m c R 100 = Ok vs /\ In i vs /\ ~ in_circle c R (centre m i).
Proof.
  exists board, (49#100, 49#100)%Q, (301#100)%Q.
  destruct (spiral_visits (E := exact_wrap) board (49#100, 49#100)%Q (301#100)%Q 100) as [vs| |] eqn:V.
  - exists vs, (6, 6). split; [exact board_geo|]. split; [exact board_reg|]. split; [reflexivity|]. split; [conj_vm|].
    split; [reflexivity|]. vm_compute in V. injection V as <-. split; [cbn; tauto|].
    intros H. vm_compute in H. auto.
  - vm_compute in V. discriminate.
  - vm_compute in V. discriminate.
Qed.
Print Assumptions C35_radius_refuted.

(** On a moved map a cell at the very centre can be followed by cells outside the
    radius while cells within the radius are left out. *)
Theorem C35_moved_refuted : exists m c R vs i, geo_ok m /\ reg_ok' m /\ inside m c /\
  spiral_visits (E := exact_wrap) m c R 100 = Ok vs /\ in_range (size m) i /\ in_circle c R (centre m i) /\ ~ In i vs.
Proof.
  exists sample, (-1#1, -9#4)%Q, (3#4)%Q.
  destruct (spiral_visits (E := exact_wrap) sample (-1#1, -9#4)%Q (3#4)%Q 100) as [vs| |] eqn:V.
  - exists vs, (0, 3). split; [exact sample_geo|]. split; [exact sample_reg|]. split; [conj_vm|]. split; [reflexivity|].
    split; [conj_vm|]. split; [conj_vm|]. vm_compute in V. injection V as <-. cbn. intuition discriminate.
  - vm_compute in V. discriminate.
  - vm_compute in V. discriminate.
Qed.
Print Assumptions C35_moved_refuted.

(** Centre outside the map, radius 0: cells of the map are visited all the same,
    and then an empty vector is read. *)
Theorem C35_outside_refuted : exists m c it i, geo_ok m /\ reg_ok' m /\ start m = (0, 0) /\ ~ inside m c /\
  spiral_new (E := exact_wrap) m c 0 = Ok it /\ spiral_cur it = Ok i /\ in_range (size m) i /\
  spiral_visits (E := exact_wrap) m c 0 100 = Fault OutOfBounds.
Proof.
  exists sample0, (5#2, -1#1)%Q.
  destruct (spiral_new (E := exact_wrap) sample0 (5#2, -1#1)%Q 0) as [it| |] eqn:V; [|vm_compute in V; discriminate ..].
  exists it, (0, 1). split; [exact sample0_geo|]. split; [exact sample0_reg|]. split; [reflexivity|].
  split; [intros (_ & H & _); vm_compute in H; auto|]. split; [reflexivity|]. vm_compute in V. injection V as <-.
  split; [reflexivity|]. split; [conj_vm|]. vm_compute. reflexivity.
Qed.
Print Assumptions C35_outside_refuted.

(** Two iterators at different cells are never told apart. *)
Theorem C35_ne_refuted : exists m c R a b i j, geo_ok m /\ spiral_new (E := exact_wrap) m c R = Ok a /\
  spiral_next (E := exact_wrap) m c R a = Ok b /\ spiral_cur a = Ok i /\ spiral_cur b = Ok j /\ i <> j /\
  spiral_ne a b = Ok false /\ forall a' b' i', spiral_cur a' = Ok i' -> spiral_ne a' b' = Ok false.
Proof.
  exists board, (0, 0)%Q, (3#2)%Q, (Spiral (4, 4) 2 0 [(4, 4)]).
  destruct (spiral_next (E := exact_wrap) board (0, 0)%Q (3#2)%Q (Spiral (4, 4) 2 0 [(4, 4)])) as [b| |] eqn:V; [|vm_compute in V; discriminate ..].
  exists b, (4, 4), (5, 3). split; [exact board_geo|]. split; [conj_vm|]. split; [reflexivity|].
  vm_compute in V. injection V as <-. split; [reflexivity|]. split; [reflexivity|]. split; [discriminate|]. split; [reflexivity|].
  intros a' b' i'. unfold spiral_cur, spiral_ne. destruct (sp_points a') as [|p l]; [discriminate|]. intros _.
  assert (idx_eqb p p = true) as -> by now apply idx_eqb_eq. reflexivity.
Qed.
Print Assumptions C35_ne_refuted.
