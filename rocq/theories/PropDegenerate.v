(** Property C88: setGeometry without assertions. *)
From Coq Require Import ZArith QArith Qabs Qround Lqa String List Bool Lia.
From Verif Require Import Base Mat GridMapMath GridIter CostMap Converter Spec ConvertSpec BaseLemmas GeoLemmas CoreProofs CoreProofs2 CoreFinal IterProofs RegProofs Ndebug Samples.
Import ListNotations.
Open Scope Z_scope.

(** A map that is not longer than 0 along an axis: no position is inside, whatever the
    rounding; nothing can be read or written by position, no submap is cut
    out. *)
Theorem C88_nowhere : forall (E : Env) m, (fst (len m) <= 0 \/ snd (len m) <= 0)%Q ->
  (forall p, isInside m p = false /\ fst (getIndex m p) = false) /\
  (forall l p v, atPosition m l p = Throw OutOfRange /\ atPosition_set l p v m = Exn OutOfRange m) /\
  (forall q l, getSubmap m q l = Ok (false, new_map (layers m))).
Proof.
  intros E m H.
  assert (W : forall p L c, (L <= 0)%Q -> within1 p L c = false).
  { intros p L c HL. unfold within1. set (t := Qopp _). destruct (Qle_bool 0 t) eqn:A; auto. destruct (Qlt_bool t L) eqn:B; auto.
    apply Qle_bool_iff in A. apply Qlt_bool_iff in B. exfalso. lra. }
  assert (I : forall p, position_within_map p (len m) (pos m) = false).
  { intros p. unfold position_within_map. destruct H as [H|H]; rewrite (W _ _ _ H); auto. apply andb_false_r. }
  split; [|split].
  - intros p. split; apply I.
  - intros l p v. unfold atPosition, atPosition_set, getIndex, index_from_position. rewrite I. auto.
  - intros q l. unfold getSubmap, submap_information, index_from_position. rewrite I. reflexivity.
Qed.
Print Assumptions C88_nowhere.

Section Geo.
Context {E : Env} (X : Exact E).

Lemma round_neg q : Qround_away q < 0 <-> (q <= -(1#2))%Q.
Proof.
  unfold Qround_away. destruct (Qle_bool 0 q) eqn:H.
  - apply Qle_bool_iff in H. split; intros K; [|lra]. exfalso.
    pose proof (Qlt_floor (q + (1#2))) as F. assert (Qfloor (q + (1#2)) + 1 <= 0) by lia. rewrite Zle_Qle in H0. injz. lra.
  - assert (q < 0)%Q. { apply Qnot_le_lt. intros K. apply Qle_bool_iff in K. congruence. }
    pose proof (Qfloor_le (- q + (1#2))) as A. pose proof (Qlt_floor (- q + (1#2))) as B. split; intros K.
    + assert (1 <= Qfloor (- q + (1#2))) as K1 by lia. rewrite Zle_Qle in K1. injz. lra.
    + assert (0 < Qfloor (- q + (1#2))); [|lia]. assert (1 <= Qfloor (- q + (1 # 2)) \/ Qfloor (- q + (1 # 2)) <= 0) as [|N] by lia; [lia|].
      rewrite Zle_Qle in N. injz. lra.
Qed.

Lemma nd_setGeometry_ok l r p m : reg_ok m -> ~ (r == 0)%Q -> (-(1#2) < fst l / r)%Q -> (-(1#2) < snd l / r)%Q ->
  exists m', nd_setGeometry l r p m = Ret tt m' /\ reg_ok m' /\
    size m' = (Qround_away (fst l / r), Qround_away (snd l / r)) /\ 0 <= fst (size m') /\ 0 <= snd (size m') /\
    (fst (len m') == inject_Z (fst (size m')) * r)%Q /\ (snd (len m') == inject_Z (snd (size m')) * r)%Q /\
    resn m' = r /\ pos m' = p /\ start m' = (0, 0) /\ layers m' = layers m /\
    (forall l i, has_layer m l -> in_range (size m') i -> value_at m' l i NO_INFORMATION).
Proof.
  intros R NZ A B.
  assert (N0 : 0 <= Qround_away (fdiv (fst l) r)).
  { rewrite (fdiv_eq X). assert (~ Qround_away (fst l / r) < 0); [|lia]. rewrite round_neg. lra. }
  assert (N1 : 0 <= Qround_away (fdiv (snd l) r)).
  { rewrite (fdiv_eq X). assert (~ Qround_away (snd l / r) < 0); [|lia]. rewrite round_neg. lra. }
  set (n0 := Qround_away (fdiv (fst l) r)) in *. set (n1 := Qround_away (fdiv (snd l) r)) in *.
  pose (m1 := set_size (set_data m (map (fun kv => (fst kv, mconst n0 n1 0)) (data m))) (n0, n1)).
  assert (R1 : reg_ok m1).
  { destruct R as [A' B' C' _]. constructor; simpl; auto.
    - now rewrite akeys_map with (f := fun kv => mconst n0 n1 0).
    - intros l'. now rewrite akeys_map with (f := fun kv => mconst n0 n1 0).
    - intros l' d. rewrite (aget_map (fun x => mconst n0 n1 0)).
      destruct (aget (data m) l'); [|discriminate]. intros K; injection K as <-. split; auto. apply wf_mconst; auto. }
  destruct (clearAll_ok m1 R1) as (m2 & Hc & V & Ex & L2 & M2).
  assert (HG : nd_setGeometry l r p m = Ret tt (set_geo m2 (fmul (inject_Z (fst (size m2))) r, fmul (inject_Z (snd (size m2))) r) r p (0, 0))).
  { unfold nd_setGeometry. destruct (Qeq_bool r 0) eqn:Z0; [apply Qeq_bool_eq in Z0; contradiction|]. cbn [fst snd]. fold n0 n1.
    destruct (Z.ltb_spec n0 0); [lia|]. destruct (Z.ltb_spec n1 0); [lia|]. cbn [orb].
    unfold bind at 1. unfold resize, modify. cbn [fst snd]. fold m1. unfold bind at 1. rewrite Hc. reflexivity. }
  assert (Sz : size m2 = (n0, n1)). { transitivity (size m1); auto. symmetry; apply M2. }
  eexists; split; [exact HG|]. cbn [size len resn pos start layers set_geo fst snd]. rewrite Sz. cbn [fst snd].
  split.
  { pose proof (pres_clearAll m1) as PC. rewrite Hc in PC. simpl in PC.
    destruct PC as [[A' B' C' D'] _]. { now split. } constructor; auto. }
  split. { unfold n0, n1. now rewrite !(fdiv_eq X). }
  split; [auto|]. split; [auto|]. split; [apply (fmul_eq X)|]. split; [apply (fmul_eq X)|].
  split; [auto|]. split; [auto|]. split; [auto|]. split; [now rewrite L2|].
  intros l' i [d Hd'] Hi. assert (value_at m2 l' i NO_INFORMATION); [|exact H].
  apply V. { exists (mconst n0 n1 0). simpl. rewrite (aget_map (fun x => mconst n0 n1 0)), Hd'. reflexivity. }
  exact Hi.
Qed.

(** The index computed from the centre of a cell, whatever the sign of the resolution. *)
Lemma raw_position1 k L c r : 0 <= k -> ~ (r == 0)%Q -> raw_index1 (position1 k L c r) L c r = k.
Proof.
  intros K NZ. unfold raw_index1. rewrite (Qtrunc_comp _ (inject_Z k + (1#2))%Q).
  - rewrite Qtrunc_nonneg. 2:{ assert (0 <= inject_Z k)%Q by (change 0%Q with (inject_Z 0); now rewrite <- Zle_Qle). lra. }
    apply Qfloor_unique; injz; lra.
  - unfold position1. repeat first [rewrite (fdiv_eq X) | rewrite (fmul_eq X) | rewrite (fsub_eq X) | rewrite (fadd_eq X)]. injz. field. auto.
Qed.

End Geo.

(** With a resolution other than 0, setGeometry returns exactly if neither of the
    quotients of length and resolution is -1/2 or less. There are then as many
    cells as the quotients say, rounded, all without information. *)
Theorem C88_geometry : forall (E : Env), Exact E -> forall l r p m, reg_ok m -> ~ (r == 0)%Q ->
  (-(1#2) < fst l / r)%Q /\ (-(1#2) < snd l / r)%Q ->
  exists m', nd_setGeometry l r p m = Ret tt m' /\
    (Qabs (inject_Z (fst (size m')) - fst l / r) <= 1#2)%Q /\ (Qabs (inject_Z (snd (size m')) - snd l / r) <= 1#2)%Q /\
    0 <= fst (size m') /\ 0 <= snd (size m') /\
    (fst (len m') == inject_Z (fst (size m')) * r)%Q /\ (snd (len m') == inject_Z (snd (size m')) * r)%Q /\
    resn m' = r /\ pos m' = p /\ start m' = (0, 0) /\ layers m' = layers m /\
    (forall k i, exists_layer m k = true -> in_range (size m') i -> at_ m' k i = Ok unknown).
Proof.
  intros E X l r p m R NZ [A B]. destruct (nd_setGeometry_ok X l r p m R NZ A B) as (m' & H & _ & S & N0 & N1 & L0 & L1 & T1 & T2 & T3 & T4 & V).
  exists m'. split; auto. rewrite S at 1 2. cbn [fst snd].
  split; [rewrite Qabs_Qminus; apply Qround_away_near|]. split; [rewrite Qabs_Qminus; apply Qround_away_near|].
  split; [auto|]. split; [auto|]. split; [auto|]. split; [auto|]. split; [auto|]. split; [auto|]. split; [auto|]. split; [auto|].
  intros k i K I. apply at_value. apply V; auto. now apply exists_has.
Qed.
Print Assumptions C88_geometry.

Theorem C88_undefined : forall (E : Env), Exact E -> forall l r p m,
  ((r == 0)%Q \/ (fst l / r <= -(1#2))%Q \/ (snd l / r <= -(1#2))%Q) <-> exists f, nd_setGeometry l r p m = Flt f.
Proof.
  intros E X l r p m. unfold nd_setGeometry. destruct (Qeq_bool r 0) eqn:Z0.
  { apply Qeq_bool_eq in Z0. split; [intros _; eexists; reflexivity|auto]. }
  cbn [fst snd]. rewrite <- !round_neg. rewrite <- !(fdiv_eq X).
  assert (NZ : ~ (r == 0)%Q) by (intros K; apply Qeq_bool_iff in K; congruence).
  destruct (Z.ltb_spec (Qround_away (fdiv (fst l) r)) 0); cbn [orb]; [split; [intros _; eexists; reflexivity|auto]|].
  destruct (Z.ltb_spec (Qround_away (fdiv (snd l) r)) 0); [split; [intros _; eexists; reflexivity|auto]|].
  split; [intros [?|[?|?]]; [contradiction|lia|lia]|]. intros [f H1]. discriminate H1.
Qed.
Print Assumptions C88_undefined.

(** A negative resolution with negative lengths: a map with cells, which the loop over
    all cells visits and whose centres are known, but no position is inside,
    not even the centre of a cell; getIndex finds the index of the cell and
    returns false. *)
Theorem C88_mirrored : forall (E : Env), Exact E -> forall l r p m m', reg_ok m -> (r < 0)%Q ->
  nd_setGeometry l r p m = Ret tt m' ->
  (forall q, isInside m' q = false) /\
  (forall i, in_range (size m') i -> exists c, getPosition m' i = Some c /\ getIndex m' c = (false, i) /\
     (fst c == fst p + fst (len m') / 2 - (inject_Z (fst i) + (1#2)) * r)%Q /\
     (snd c == snd p + snd (len m') / 2 - (inject_Z (snd i) + (1#2)) * r)%Q) /\
  (0 < fst (size m') -> 0 < snd (size m') -> exists v, map_visits (size m') (start m') = Ok v /\ NoDup v /\
     forall i, In i v <-> in_range (size m') i).
Proof.
  intros E X l r p m m' R N H. assert (NZ : ~ (r == 0)%Q) by lra.
  assert ((-(1#2) < fst l / r)%Q /\ (-(1#2) < snd l / r)%Q) as [A B].
  { destruct (C88_undefined E X l r p m) as [U _].
    split; apply Qnot_le_lt; intros K; destruct U as [f F]; auto; rewrite H in F; discriminate F. }
  destruct (nd_setGeometry_ok X l r p m R NZ A B) as (m2 & H2 & _ & _ & N0 & N1 & L0 & L1 & T1 & T2 & T3 & _).
  rewrite H in H2. injection H2 as <-.
  assert (W : forall q, isInside m' q = false).
  { intros q. apply C88_nowhere. left. rewrite L0. assert (0 <= inject_Z (fst (size m')))%Q by (change 0%Q with (inject_Z 0); now rewrite <- Zle_Qle). nra. }
  split; auto. split.
  - intros i I. unfold getPosition, position_from_index. rewrite (proj2 (index_in_range_iff _ _) I). rewrite T3, T1, T2.
    assert (U : unwrap_index i (size m') (0, 0) = i) by reflexivity. rewrite U. eexists. split; [reflexivity|]. split.
    + rewrite <- (W (position1 (fst i) (fst (len m')) (fst p) r, position1 (snd i) (snd (len m')) (snd p) r)).
      unfold getIndex, index_from_position, isInside. f_equal. rewrite T3, T1, T2. cbn [fst snd]. destruct I as [I0 I1].
      rewrite !(raw_position1 X) by (auto; lia). unfold wrap_index. cbn. now destruct i.
    + cbn [fst snd]. split; rewrite (position1_centre X); unfold centre1; reflexivity.
  - intros P0 P1. assert (I : in_range (size m') (start m')) by (rewrite T3; unfold in_range; cbn; lia).
    exists (visit_list (size m') (start m')). split; [now apply map_visits_ok|]. split; [now apply visit_list_NoDup|]. intros i. now apply visit_list_In.
Qed.
Print Assumptions C88_mirrored.

(** ** Cases *)

(** Lengths -2 and -3 with resolution -0.75 give 3x4 cells; the first cell is the one
    with the smallest coordinates. *)
Example C88_case : Exact exact_wrap /\ reg_ok sample /\
  setGeometry (E := exact_wrap) (-(2#1), -(3#1))%Q (-(3#4)) (0, 0)%Q sample = Flt AssertFailed /\
  exists m', nd_setGeometry (E := exact_wrap) (-(2#1), -(3#1))%Q (-(3#4)) (0, 0)%Q sample = Ret tt m' /\
    size m' = (3, 4) /\ getPosition (E := exact_wrap) m' (0, 0) = Some (-(3#4), -(9#8))%Q /\
    getIndex (E := exact_wrap) m' (-(3#4), -(9#8))%Q = (false, (0, 0)) /\ at_ m' "a" (2, 3) = Ok 255.
Proof.
  split; [exact exact_wrap_Exact|]. split; [apply sample_reg|]. split; [reflexivity|].
  exists (after (nd_setGeometry (E := exact_wrap) (-(2#1), -(3#1))%Q (-(3#4)) (0, 0)%Q) sample).
  split; [vm_compute; reflexivity|]. conj_vm.
Qed.

(** Length 0 gives a map without cells. *)
Example C88_empty_case : exists m', nd_setGeometry (E := exact_wrap) (0, 3#1)%Q 1%Q (0, 0)%Q sample = Ret tt m' /\
  size m' = (0, 3) /\ (fst (len m') <= 0)%Q.
Proof.
  exists (after (nd_setGeometry (E := exact_wrap) (0, 3#1)%Q 1%Q (0, 0)%Q) sample).
  split; [vm_compute; reflexivity|]. conj_vm.
Qed.

(** Without assertions, the index of a cell is not always found from its centre (C11),
    in doubles: the message of a map of 3x2 cells, with the signs of resolution and
    lengths changed. *)
Theorem C88_message_refuted : forall p, let E := binary64 p in
  let g := Msg (7, 5) "map" (-1)%Q (-3, -2)%Q (0, 0)%Q ["a"%string] []
             [MArray [("column_index"%string, 2); ("row_index"%string, 3)] [0; 50; 100; 150; 200; 254]] (0, 0) in
  fromMessage g (new_map []) = Flt AssertFailed /\
  exists m c, nd_fromMessage g (new_map []) = Ret true m /\ size m = (3, 2) /\ at_ m "a" (1, 1) = Ok 200 /\
    getPosition m (1, 1) = Some c /\ isInside m c = false /\ atPosition m "a" c = Throw OutOfRange.
Proof.
  intros p E g. split; [destruct p; vm_compute; reflexivity|].
  exists (after (nd_fromMessage g) (new_map [])), (0, 1#2)%Q.
  destruct p; (split; [|split; [|split; [|split; [|split]]]]); vm_compute; reflexivity.
Qed.
Print Assumptions C88_message_refuted.
