(** Properties C14-C17: moving a map. *)
From Coq Require Import ZArith QArith Qabs String List Bool Lia.
From Verif Require Import Base Mat GridMapMath CostMap History Spec BaseLemmas GeoLemmas CoreProofs CoreProofs2 CoreFinal MoveProofs MoveFinal Samples.
Import ListNotations.
Open Scope Z_scope.

(** C14. After any sequence of moves, a position that stayed inside the map all
    along shows the same value in every layer; a position that was outside at
    some time shows NO_INFORMATION in every cleared layer. *)
Theorem C14_move_stationary : forall (E : Env), Exact E -> bpol = BWrap -> forall m tr m',
  geo_ok m -> reg_ok' m -> basics_exist m -> move_trace m tr m' ->
  (forall l q v, inside m' q -> (forall mi, In mi (map fst tr) -> inside mi q) ->
     (world_value m' l q v <-> world_value m l q v)) /\
  (forall l q, cleared_layer m l -> inside m' q -> (exists mi, In mi (map fst tr) /\ ~ inside mi q) ->
     world_value m' l q unknown).
Proof. exact move_stationary_final. Qed.
Print Assumptions C14_move_stationary.

(** Every sequence of targets can be executed: no move fails. *)
Theorem C14_move_total : forall (E : Env), Exact E -> bpol = BWrap -> forall ps m,
  geo_ok m -> reg_ok' m -> basics_exist m ->
  exists tr m', move_trace m tr m' /\ map snd tr = ps.
Proof. exact move_trace_total. Qed.
Print Assumptions C14_move_total.

Definition moved_sample : cmap := after (move (E := exact_wrap) (0, -2#1)%Q) sample.

Example C14_case : Exact exact_wrap /\ geo_ok sample /\ reg_ok' sample /\ basics_exist sample /\
  move_trace (E := exact_wrap) sample [(sample, (0, -2#1)%Q)] moved_sample /\
  cleared_layer sample "a" /\
  start moved_sample = (1, 2) /\
  atPosition (E := exact_wrap) sample "a" (-(1#2), -2#1)%Q = Ok 17 /\
  atPosition (E := exact_wrap) moved_sample "a" (-(1#2), -2#1)%Q = Ok 17 /\
  atPosition (E := exact_wrap) sample "a" (1#1, -2#1)%Q = Throw OutOfRange /\
  atPosition (E := exact_wrap) moved_sample "a" (1#1, -2#1)%Q = Ok 255.
Proof.
  split; [exact exact_wrap_Exact|]. split; [exact sample_geo|]. split; [exact sample_reg|].
  split; [apply basics_existb_ok; vm_compute; reflexivity|]. split.
  { apply (mt_snoc (E := exact_wrap) sample [] sample (0, -2#1)%Q true [Region (1, 0) (2, 4) QUndefined]).
    constructor. vm_compute. reflexivity. }
  split; [vm_compute; auto|]. conj_vm.
Qed.

(** The restriction to cleared layers matters: when basic layers are set, a
    partial move leaves old data of the other layers in newly covered cells. *)
Theorem C14_nonbasic_stale_refuted : exists m m' rs q,
  geo_ok m /\ reg_ok' m /\ basics_exist m /\
  move (E := exact_wrap) (0, -2#1)%Q m = Ret (true, rs) m' /\
  atPosition (E := exact_wrap) m "a" q = Throw OutOfRange /\
  atPosition (E := exact_wrap) m' "a" q = Ok 5 /\
  atPosition (E := exact_wrap) m' "b" q = Ok 255.
Proof.
  exists (after (setBasicLayers ["b"%string]) sample).
  eexists. eexists. exists (1#1, -2#1)%Q.
  split; [apply geo_okb_ok; vm_compute; reflexivity|].
  split; [apply reg_okb_ok; vm_compute; reflexivity|].
  split. { apply basics_existb_ok. vm_compute. reflexivity. }
  split; [vm_compute; reflexivity|]. conj_vm.
Qed.
Print Assumptions C14_nonbasic_stale_refuted.

(** C15. Whatever boundIndexToRange does. *)
Theorem C15_move_aligned : forall (E : Env), Exact E -> forall p m,
  geo_ok m -> reg_ok' m -> basics_exist m ->
  exists b rs m', move p m = Ret (b, rs) m' /\
    geo_ok m' /\ reg_ok' m' /\
    layers m' = layers m /\ frame m' = frame m /\ stamp m' = stamp m /\ basic m' = basic m /\
    len m' = len m /\ resn m' = resn m /\ size m' = size m /\
    (forall l, exists_layer m' l = exists_layer m l) /\
    (forall l i v, value_at m' l i v -> v = unknown \/ value_at m l i v) /\
    (exists k0 k1 : Z, (fst (pos m') == fst (pos m) + inject_Z k0 * resn m)%Q /\
                       (snd (pos m') == snd (pos m) + inject_Z k1 * resn m)%Q) /\
    (Qabs (fst (pos m') - fst p) <= resn m / 2)%Q /\ (Qabs (snd (pos m') - snd p) <= resn m / 2)%Q /\
    (b = true <-> ~ veq (pos m') (pos m)).
Proof. exact move_single_final. Qed.
Print Assumptions C15_move_aligned.

Example C15_case : geo_ok sample /\ reg_ok' sample /\ basics_exist sample /\
  pos sample = (-(1#1), -2#1)%Q /\ pos (after (move (E := exact_wrap) (-(7#8), -(9#4))%Q) sample) = (-(1#1), -(5#2))%Q.
Proof.
  split; [exact sample_geo|]. split; [exact sample_reg|]. split; [apply basics_existb_ok; vm_compute; reflexivity|].
  split; vm_compute; reflexivity.
Qed.

(** C16. *)
Theorem C16_move_regions : forall (E : Env), Exact E -> bpol = BWrap -> forall p m b rs m',
  geo_ok m -> reg_ok' m -> basics_exist m -> move p m = Ret (b, rs) m' ->
  forall i, in_range (size m') i ->
    ((exists r, In r rs /\ region_has r i) <-> ~ inside m (centre m' i)).
Proof. exact move_regions_final. Qed.
Print Assumptions C16_move_regions.

Example C16_case : geo_ok sample /\ reg_ok' sample /\ basics_exist sample /\
  exists m', move (E := exact_wrap) (0, -1#1)%Q sample =
    Ret (true, [Region (1, 0) (2, 4) QUndefined; Region (0, 0) (5, 2) QUndefined]) m'.
Proof.
  split; [exact sample_geo|]. split; [exact sample_reg|]. split; [apply basics_existb_ok; vm_compute; reflexivity|].
  eexists. vm_compute. reflexivity.
Qed.

(** C17. With the clamping boundIndexToRange, already the first move of a fresh
    map can relocate data: a 5 x 1 map of unit cells moved by two cells. *)
Theorem C17_clamp_move_refuted : exists m m' rs q,
  reach (E := binary64 BClamp) (new_map ["a"%string]) m /\ geo_ok m /\ reg_ok' m /\ basics_exist m /\
  move (E := binary64 BClamp) (2#1, 0)%Q m = Ret (true, rs) m' /\
  inside m q /\ inside m' q /\
  atPosition (E := binary64 BClamp) m "a" q = Ok 2 /\
  atPosition (E := binary64 BClamp) m' "a" q = Ok 4.
Proof.
  pose (E := binary64 BClamp).
  pose (m1 := after (setGeometry (5#1, 1#1)%Q 1%Q (0, 0)%Q) (new_map ["a"%string])).
  pose (d := Mat 5 1 [0; 1; 2; 3; 4]).
  pose (m2 := after (add "a" d) m1).
  exists m2. eexists. eexists. exists (0, 0)%Q. split.
  { eapply reach_step with (o := OpAdd "a" d) (m1 := m1).
    - eapply reach_step with (o := OpSetGeometry (5#1, 1#1)%Q 1%Q (0, 0)%Q) (m1 := new_map ["a"%string]).
      + apply reach_refl.
      + exact I.
      + left. vm_compute. reflexivity.
    - vm_compute. intuition discriminate.
    - left. vm_compute. reflexivity. }
  split; [apply geo_okb_ok; vm_compute; reflexivity|].
  split; [apply reg_okb_ok; vm_compute; reflexivity|].
  split; [apply basics_existb_ok; vm_compute; reflexivity|]. split; [vm_compute; reflexivity|].
  split; [vm_compute; intuition discriminate|]. split; [vm_compute; intuition discriminate|].
  split; vm_compute; reflexivity.
Qed.
Print Assumptions C17_clamp_move_refuted.

(** Under either policy the move is correct whenever the target is closest to a
    centre k0, k1 cells away such that the start index stays in the buffer (or
    the whole axis is replaced). *)
Theorem C17_move_nowrap : forall (E : Env), Exact E -> forall p m b rs m' k0 k1,
  geo_ok m -> reg_ok' m -> basics_exist m -> move p m = Ret (b, rs) m' ->
  (Qabs (fst p - (fst (pos m) + inject_Z k0 * resn m)) < resn m / 2)%Q ->
  (Qabs (snd p - (snd (pos m) + inject_Z k1 * resn m)) < resn m / 2)%Q ->
  (0 <= fst (start m) - k0 < fst (size m) \/ fst (size m) <= Z.abs k0) ->
  (0 <= snd (start m) - k1 < snd (size m) \/ snd (size m) <= Z.abs k1) ->
  (forall l q v, inside m q -> inside m' q -> (world_value m' l q v <-> world_value m l q v)) /\
  (forall l q, cleared_layer m l -> inside m' q -> ~ inside m q -> world_value m' l q unknown) /\
  (b = true <-> ~ veq (pos m') (pos m)) /\
  (forall i, in_range (size m') i -> ((exists r, In r rs /\ region_has r i) <-> ~ inside m (centre m' i))).
Proof. exact move_nowrap_final. Qed.
Print Assumptions C17_move_nowrap.

(** Start index (3, 2), target 2 cells up in x and 1 down in y: the new start
    index is (1, 3). *)
Example C17_case : Exact exact_clamp /\ geo_ok sample /\ reg_ok' sample /\ basics_exist sample /\
  (exists rs m', move (E := exact_clamp) (0, -(5#2))%Q sample = Ret (true, rs) m' /\ start m' = (1, 3)) /\
  (Qabs (0 - (fst (pos sample) + inject_Z 2 * resn sample)) < resn sample / 2)%Q /\
  (Qabs (-(5#2) - (snd (pos sample) + inject_Z (-1) * resn sample)) < resn sample / 2)%Q /\
  0 <= fst (start sample) - 2 < fst (size sample) /\ 0 <= snd (start sample) - -1 < snd (size sample).
Proof.
  split; [exact exact_clamp_Exact|]. split; [exact sample_geo|]. split; [exact sample_reg|].
  split; [apply basics_existb_ok; vm_compute; reflexivity|]. split; [eexists; eexists; split; vm_compute; reflexivity|].
  conj_vm.
Qed.
