(** Properties C11-C13: indices and positions. *)
From Coq Require Import ZArith QArith Qabs String List Bool Lia.
From Verif Require Import Base Mat GridMapMath CostMap History Spec BaseLemmas GeoLemmas CoreProofs CoreProofs2 CoreFinal Samples.
Import ListNotations.
Open Scope Z_scope.

(** C11. *)
Theorem C11_index_roundtrip : forall (E : Env), Exact E -> forall m i,
  geo_ok m -> in_range (size m) i ->
  exists p, getPosition m i = Some p /\ getIndex m p = (true, i).
Proof. exact @index_roundtrip. Qed.
Print Assumptions C11_index_roundtrip.

Example C11_case : Exact exact_wrap /\ geo_ok sample /\ start sample = (3, 2) /\ in_range (size sample) (1, 3) /\
  getPosition (E := exact_wrap) sample (1, 3) = Some (-(3#2), -(7#4))%Q.
Proof.
  split; [exact exact_wrap_Exact|]. split; [exact sample_geo|]. split; [reflexivity|].
  split; [vm_compute; intuition discriminate|]. vm_compute. reflexivity.
Qed.

(** C12. *)
Theorem C12_position_to_index : forall (E : Env), Exact E -> forall m p, geo_ok m ->
  (isInside m p = true <-> inside m p) /\
  (fst (getIndex m p) = true <-> inside m p) /\
  (inside m p -> exists i c, getIndex m p = (true, i) /\ in_range (size m) i /\
     getPosition m i = Some c /\ contains (resn m) c p /\
     (Qabs (fst c - fst p) <= resn m / 2)%Q /\ (Qabs (snd c - snd p) <= resn m / 2)%Q).
Proof. exact @position_to_index. Qed.
Print Assumptions C12_position_to_index.

Theorem C12_atPosition : forall (E : Env), Exact E -> forall m l p,
  geo_ok m -> reg_ok m -> exists_layer m l = true ->
  (inside m p -> exists i, in_range (size m) i /\ contains (resn m) (centre m i) p /\
     atPosition m l p = at_ m l i /\ (forall v, atPosition_set l p v m = at_set l i v m)) /\
  (~ inside m p -> atPosition m l p = Throw OutOfRange /\
     (forall v, atPosition_set l p v m = Exn OutOfRange m)).
Proof. exact atPosition_final. Qed.
Print Assumptions C12_atPosition.

Example C12_case : geo_ok sample /\ reg_ok sample /\ exists_layer sample "a" = true /\
  isInside (E := exact_wrap) sample (-(2#1), -(17#8))%Q = true /\
  getIndex (E := exact_wrap) sample (-(2#1), -(17#8))%Q = (true, (2, 0)) /\
  atPosition (E := exact_wrap) sample "a" (-(2#1), -(17#8))%Q = Ok 9.
Proof.
  split; [exact sample_geo|]. split; [apply sample_reg|]. conj_vm.
Qed.

(** In IEEE double arithmetic the second half of C12 fails: for a map with
    length 1.4, resolution 0.2 and centre 0.1 on both axes, the position
    (-0.6, -0.6) is reported inside, but the index computed for it is (7, 7)
    on a 7 x 7 map, so that atPosition accesses the matrix out of range. *)
Theorem C12_binary64_refuted : forall pol,
  let E := binary64 pol in
  let lit := rne 53 in
  exists m p i,
    setGeometry (lit (14#10), lit (14#10)) (lit (2#10)) (lit (1#10), lit (1#10)) (new_map ["a"%string]) = Ret tt m /\
    p = (lit (-6#10), lit (-6#10)) /\
    isInside m p = true /\ getIndex m p = (true, i) /\ ~ in_range (size m) i /\
    atPosition m "a" p = Fault OutOfBounds.
Proof.
  intros pol E lit. eexists; eexists; eexists. split; [vm_compute; reflexivity|].
  split; [reflexivity|]. split; [vm_compute; reflexivity|]. split; [vm_compute; reflexivity|].
  split; [vm_compute; intuition discriminate|]. vm_compute. reflexivity.
Qed.
Print Assumptions C12_binary64_refuted.

(** C13. *)
Theorem C13_regular_grid : forall (E : Env), Exact E -> forall m, geo_ok m ->
  (forall i j p q, getPosition m i = Some p -> getPosition m j = Some q -> veq p q -> i = j) /\
  (forall i p, getPosition m i = Some p ->
     exists u, in_range (size m) u /\
       ((fst i - fst u - fst (start m)) mod fst (size m) = 0) /\
       ((snd i - snd u - snd (start m)) mod snd (size m) = 0) /\
       (fst p == fst (pos m) + fst (len m) / 2 - (inject_Z (fst u) + (1#2)) * resn m)%Q /\
       (snd p == snd (pos m) + snd (len m) / 2 - (inject_Z (snd u) + (1#2)) * resn m)%Q /\
       inside m p) /\
  (forall i, getPosition m i = None <-> ~ in_range (size m) i).
Proof. exact regular_grid. Qed.
Print Assumptions C13_regular_grid.

Example C13_case : geo_ok sample /\ getPosition (E := exact_wrap) sample (0, 0) = Some (-(1#1), -(9#4))%Q /\
  getPosition (E := exact_wrap) sample (3, 2) = Some (0, -(5#4))%Q.
Proof. split; [exact sample_geo|]. split; vm_compute; reflexivity. Qed.
