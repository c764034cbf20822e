(** Properties C32, C33: the line iterator. *)
From Coq Require Import ZArith QArith Qabs Qround String List Bool Lia Lqa.
From Verif Require Import Base Mat GridMapMath GridIter CostMap Iterators Spec BaseLemmas CoreProofs FloatLemmas LineProofs Samples PropWindow.
Import ListNotations.
Open Scope Z_scope.

(** C32. The ideal point of the k-th of n steps is a + k/n (b - a); the inequalities
    say that the k-th cell is at most half a cell away from it on each axis. *)
Theorem C32_line : forall a b, exists cells, line_visits a b = Ok cells /\
  let n := Z.max (Z.abs (fst b - fst a)) (Z.abs (snd b - snd a)) in
  Z.of_nat (List.length cells) = n + 1 /\
  nth_error cells 0 = Some a /\ nth_error cells (Z.to_nat n) = Some b /\
  (forall k c c', nth_error cells k = Some c -> nth_error cells (S k) = Some c' ->
     Z.max (Z.abs (fst c' - fst c)) (Z.abs (snd c' - snd c)) = 1) /\
  (forall k c, nth_error cells k = Some c ->
     Z.min (fst a) (fst b) <= fst c <= Z.max (fst a) (fst b) /\
     Z.min (snd a) (snd b) <= snd c <= Z.max (snd a) (snd b) /\
     2 * Z.abs (n * (fst c - fst a) - Z.of_nat k * (fst b - fst a)) <= n /\
     2 * Z.abs (n * (snd c - snd a) - Z.of_nat k * (snd b - snd a)) <= n).
Proof. exact line_final. Qed.
Print Assumptions C32_line.

Example C32_case : line_visits (2, 1) (-3, 3) = Ok [(2, 1); (1, 1); (0, 2); (-1, 2); (-2, 3); (-3, 3)] /\
  line_visits (4, 4) (4, 4) = Ok [(4, 4)].
Proof. conj_vm. Qed.

(** C33. The iterator draws the line between the cells at which the segment, seen
    from either end, is found to enter the map; it is left uninitialised only if
    an end is outside, and the part of the segment inside the map is shorter than
    sqrt 6 cells. Segments must not be shorter than a seventh of a cell. *)
Theorem C33_positions : forall (E : Env), Exact E -> forall sqr, sqrt_approx sqr -> forall m st en,
  geo_ok m -> (dbl_eps < resn m)%Q -> (veq st en \/ (resn m * resn m <= 50 * dist2 st en)%Q) ->
  exists N r, (forall fuel, (N <= fuel)%nat -> line_visits_positions sqr m st en fuel = r) /\
  ((exists a b, r = line_visits a b /\ enters m st en a /\ enters m en st b) \/
   (r = Fault Uninit /\ (~ inside m st \/ ~ inside m en) /\
    forall t0 t1, (0 <= t0)%Q -> (t1 <= 1)%Q -> (t0 <= t1)%Q -> (6 * (resn m * resn m) <= (t1 - t0) * (t1 - t0) * dist2 st en)%Q ->
        ~ (forall t, (t0 <= t /\ t <= t1)%Q -> inside m (along st en t)))).
Proof. exact @positions_final. Qed.
Print Assumptions C33_positions.

(** From outside to inside; from one side to the other; far away. *)
Example C33_case : geo_ok sample0 /\ (dbl_eps < resn sample0)%Q /\ sqrt_approx qsqrt /\
  line_visits_positions (E := exact_wrap) qsqrt sample0 (7#2, -1#1)%Q (1#2, -1#4)%Q 20 = Ok [(0, 1); (1, 0); (2, 0)] /\
  line_visits_positions (E := exact_wrap) qsqrt sample0 (1#2, 3#1)%Q (1#2, -4#1)%Q 20 = Ok [(2, 0); (2, 1); (2, 2); (2, 3)] /\
  line_visits_positions (E := exact_wrap) qsqrt sample0 (-9#1, 1#1)%Q (9#1, 1#1)%Q 80 = Fault Uninit.
Proof. split; [exact sample0_geo|]. split; [reflexivity|]. split; [exact qsqrt_ok|]. conj_vm. Qed.

(** Half of the segment, and its end, inside the map: still uninitialised. *)
Theorem C33_short_refuted : exists m st en, geo_ok m /\ reg_ok' m /\ inside m en /\
  (forall t, (1#2 <= t)%Q -> (t <= 1)%Q -> inside m (along st en t)) /\
  forall fuel, (0 < fuel)%nat -> line_visits_positions (E := exact_wrap) qsqrt m st en fuel = Fault Uninit.
Proof.
  exists sample0, (2#1, -1#1)%Q, (3#2, -1#1)%Q. split; [exact sample0_geo|]. split; [exact sample0_reg|].
  split; [conj_vm|]. split.
  - intros t H1 H2. unfold inside, along. cbn [fst snd].
    assert (fst (pos sample0) - fst (len sample0) / 2 == -3#4)%Q as -> by (vm_compute; reflexivity).
    assert (fst (pos sample0) + fst (len sample0) / 2 == 7#4)%Q as -> by (vm_compute; reflexivity).
    assert (snd (pos sample0) - snd (len sample0) / 2 == -2#1)%Q as -> by (vm_compute; reflexivity).
    assert (snd (pos sample0) + snd (len sample0) / 2 == 0)%Q as -> by (vm_compute; reflexivity).
    split; [lra|]. split; [lra|]. split; lra.
  - intros [|f] H; [lia|]. vm_compute. reflexivity.
Qed.
Print Assumptions C33_short_refuted.

(** On a moved map the line between two inside positions leaves the segment by
    more than a cell: the cells are counted in the wrapped buffer. *)
Theorem C33_moved_refuted : exists m st en cells i, geo_ok m /\ reg_ok' m /\ inside m st /\ inside m en /\
  line_visits_positions (E := exact_wrap) qsqrt m st en 20 = Ok cells /\ In i cells /\ in_range (size m) i /\
  forall t, (0 <= t)%Q -> (t <= 1)%Q -> (resn m * resn m < dist2 (centre m i) (along st en t))%Q.
Proof.
  exists sample, (-1#1, -9#4)%Q, (0, -9#4)%Q, [(0, 0); (1, 0); (2, 0); (3, 0)], (2, 0).
  split; [exact sample_geo|]. split; [exact sample_reg|]. split; [conj_vm|]. split; [conj_vm|]. split; [conj_vm|].
  split; [cbn; auto|]. split; [conj_vm|]. intros t H1 H2.
  assert (C : veq (centre sample (2, 0)) (-2#1, -9#4)%Q) by (vm_compute; auto).
  destruct C as [C1 C2]. unfold dist2, along. cbn [fst snd]. rewrite C1, C2. cbn [fst snd].
  change (resn sample) with (1#2)%Q. nra.
Qed.
Print Assumptions C33_moved_refuted.

(** In double arithmetic the search need not end: two distinct positions outside
    the map, closer to each other than the rounding of one resolution step. *)
Definition far_map : cmap :=
  after (setGeometry (E := binary64 BClamp) (4#1, 4#1)%Q (4503599627370497 # 4503599627370496) (0, 100#1)%Q) (new_map ["a"%string]).

Lemma endless_loop f : forall x, (1 <= x)%Q ->
  limit_loop (E := binary64 BClamp) qsqrt far_map (0, 0)%Q (1, 0)%Q f (x, 0%Q) = Fault OutOfFuel.
Proof.
  induction f as [|f IH]; intros x Hx; [reflexivity|]. cbn [limit_loop].
  rewrite (surjective_pairing (getIndex far_map (x, 0%Q))).
  assert (fst (getIndex (E := binary64 BClamp) far_map (x, 0%Q)) = false) as ->.
  { change (within1 (E := binary64 BClamp) x (fst (len far_map)) (fst (pos far_map)) &&
            within1 (E := binary64 BClamp) 0 (snd (len far_map)) (snd (pos far_map)) = false).
    assert (within1 (E := binary64 BClamp) 0 (snd (len far_map)) (snd (pos far_map)) = false) as -> by (vm_compute; reflexivity).
    apply andb_false_r. }
  cbv zeta. cbn [fst snd]. set (B := binary64 BClamp).
  assert (Es : fsub (E := B) (resn far_map) dbl_eps = 1%Q) by (vm_compute; reflexivity). rewrite Es.
  assert (E1 : fmul (E := B) 1 1 = 1%Q) by (vm_compute; reflexivity). rewrite E1.
  assert (E2 : fadd (E := B) 0 (fmul (E := B) 1 0) = 0%Q) by (vm_compute; reflexivity). rewrite E2.
  assert (E3 : fmul (E := B) (fsub (E := B) 0 0) (fsub (E := B) 0 0) = 0%Q) by (vm_compute; reflexivity). rewrite E3.
  set (x' := fadd (E := B) x 1). assert (Hx' : (1 <= x')%Q) by (apply rne_ge1; lra).
  set (dx := fsub (E := B) 0 x'). assert (Hdx : (dx <= -1)%Q) by (apply rne_le1; lra).
  set (w := fadd (E := B) (fmul (E := B) dx dx) 0).
  assert (Hw : (1 <= w)%Q).
  { apply rne_ge1. assert (1 <= fmul (E := B) dx dx)%Q; [apply rne_ge1; nra|lra]. }
  assert (Qlt_bool (qsqrt w) 1 = false) as ->; [|now apply IH].
  destruct (Qlt_bool (qsqrt w) 1) eqn:K; auto. apply Qlt_bool_iff in K. exfalso.
  clearbody w. destruct w as [n d]. unfold Qle in Hw. cbn in Hw. unfold qsqrt, Qlt in K. cbn [Qnum Qden] in K.
  assert (Zpos (100 * d) <= Z.sqrt (10000 * n * Zpos d)); [|lia].
  apply Z.sqrt_le_square; nia.
Qed.

Theorem C33_endless_refuted : exists m st en, geo_ok m /\ reg_ok' m /\ ~ veq st en /\
  forall fuel, line_visits_positions (E := binary64 BClamp) qsqrt m st en fuel = Fault OutOfFuel.
Proof.
  exists far_map, (-1 # (2 ^ 200), 0)%Q, (0, 0)%Q.
  split; [apply geo_okb_ok; vm_compute; reflexivity|]. split; [apply reg_okb_ok; vm_compute; reflexivity|].
  split; [intros [H _]; vm_compute in H; discriminate|]. intros fuel.
  unfold line_visits_positions, line_new_positions, limited_index.
  match goal with |- context [limit_loop _ _ _ ?d _ _] => set (dir := d) end.
  assert (D : dir = (1, 0)%Q) by (vm_compute; reflexivity). rewrite D. clear dir D.
  assert (L : limit_loop (E := binary64 BClamp) qsqrt far_map (0, 0)%Q (1, 0)%Q fuel (-1 # (2 ^ 200), 0)%Q = Fault OutOfFuel).
  { destruct fuel as [|f]; [reflexivity|].
    transitivity (limit_loop (E := binary64 BClamp) qsqrt far_map (0, 0)%Q (1, 0)%Q f (1, 0)%Q).
    - cbn [limit_loop].
      match goal with |- context [getIndex ?a ?b] => set (g := getIndex a b) end.
      assert (G : fst g = false) by (vm_compute; reflexivity). destruct g as [ok i]. cbn [fst] in G. rewrite G. cbv zeta.
      match goal with |- context [Qlt_bool ?a ?b] => set (c := Qlt_bool a b) end.
      assert (C : c = false) by (vm_compute; reflexivity). rewrite C. clear c C.
      match goal with |- limit_loop _ _ _ _ _ ?a = _ => set (st' := a) end.
      assert (S : st' = (1, 0)%Q) by (vm_compute; reflexivity). rewrite S. reflexivity.
    - apply endless_loop. lra. }
  rewrite L. reflexivity.
Qed.
Print Assumptions C33_endless_refuted.
