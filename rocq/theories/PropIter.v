(** Properties C25-C27 and C61: iterating over a map or a rectangular window. *)
From Coq Require Import ZArith QArith Qabs String List Bool Lia.
From Verif Require Import Base Mat GridMapMath GridIter CostMap History Spec BaseLemmas CoreProofs CoreFinal AddDataProofs MoveFinal Samples.
Import ListNotations.
Open Scope Z_scope.

(** C25. vs lists the (index, unwrapped index) pairs of the whole loop. *)
Theorem C25_visits_every_cell_once : forall (E : Env) n s, in_range n s ->
  exists vs, map_visits2 n s = Ok vs /\ map_visits n s = Ok (map fst vs) /\
    NoDup (map fst vs) /\
    (forall i, In i (map fst vs) <-> in_range n i) /\
    (forall k i u, nth_error vs k = Some (i, u) ->
       u = ((fst i - fst s) mod fst n, (snd i - snd s) mod snd n) /\
       Z.of_nat k = fst u * snd n + snd u).
Proof. exact map_visits2_final. Qed.
Print Assumptions C25_visits_every_cell_once.

Example C25_case : in_range (2, 3) (1, 2) /\
  map_visits (E := exact_clamp) (2, 3) (1, 2) = Ok [(1, 2); (1, 0); (1, 1); (0, 2); (0, 0); (0, 1)].
Proof. split; [vm_compute; intuition discriminate|]. vm_compute. reflexivity. Qed.

(** C26. On a map without cells the first iteration already is out of range:
    addDataFrom without extension always runs into undefined behaviour. *)
Theorem C26_empty_map_add_data : forall (E : Env) other ow ca ls m,
  reg_ok' m -> basics_exist m -> start m = (0, 0) -> (fst (size m) = 0 \/ snd (size m) = 0) ->
  exists f, addDataFrom other false ow ca ls m = Flt f.
Proof. exact @add_data_empty. Qed.
Print Assumptions C26_empty_map_add_data.

Theorem C26_empty_map_visits : forall (E : Env) n, bpol = BClamp ->
  (fst n = 0 \/ snd n = 0) -> 0 <= fst n -> 0 <= snd n ->
  map_visits n (0, 0) = Ok [(0, 0)].
Proof. exact @map_visits_empty. Qed.
Print Assumptions C26_empty_map_visits.

Example C26_case : let m := new_map ["a"%string] in
  reg_ok' m /\ basics_exist m /\ start m = (0, 0) /\ fst (size m) = 0 /\
  addDataFrom (E := binary64 BClamp) sample false true true [] m = Flt Uninit.
Proof.
  split; [apply reg_okb_ok; vm_compute; reflexivity|]. split; [apply basics_existb_ok; vm_compute; reflexivity|].
  conj_vm.
Qed.

(** C27. vs lists the (buffer index, submap index) pairs of the whole loop over
    the window with top-left buffer index tl and size sn. *)
Theorem C27_submap_iterator : forall (E : Env) n s tl sn,
  in_range n s -> in_range n tl -> 0 < fst sn -> 0 < snd sn ->
  (fst tl - fst s) mod fst n + fst sn <= fst n -> (snd tl - snd s) mod snd n + snd sn <= snd n ->
  exists vs, sub_visits n s tl sn = Ok vs /\ NoDup (map fst vs) /\
    (forall i w, In (i, w) vs <-> in_range sn w /\
        i = ((fst tl + fst w) mod fst n, (snd tl + snd w) mod snd n)) /\
    (forall k i w, nth_error vs k = Some (i, w) -> Z.of_nat k = fst w * snd sn + snd w).
Proof. exact sub_visits_final. Qed.
Print Assumptions C27_submap_iterator.

Example C27_case : in_range (4, 3) (2, 1) /\ in_range (4, 3) (3, 2) /\
  (3 - 2) mod 4 + 2 <= 4 /\ (2 - 1) mod 3 + 2 <= 3 /\
  sub_visits (4, 3) (2, 1) (3, 2) (2, 2) =
    Ok [((3, 2), (0, 0)); ((3, 0), (0, 1)); ((0, 2), (1, 0)); ((0, 0), (1, 1))].
Proof. conj_vm. Qed.

(** C61. end() is the last cell, not the one past it: the loop
    [it != it.end()] skips exactly that cell. *)
Theorem C61_end_loop_skips_last : forall (E : Env) n s, bpol = BWrap \/ s = (0, 0) -> in_range n s ->
  exists vs, map_visits_end n s = Ok vs /\ NoDup vs /\
    (forall i, In i vs <-> in_range n i /\
       i <> ((fst s + fst n - 1) mod fst n, (snd s + snd n - 1) mod snd n)).
Proof. exact map_visits_end_final. Qed.
Print Assumptions C61_end_loop_skips_last.

(** With the clamping boundIndexToRange, end() is the last cell of the buffer:
    on a moved map the loop skips it and all cells that come after it. *)
Theorem C61_clamped : forall (E : Env) n s, bpol = BClamp -> in_range n s ->
  let number i := ((fst i - fst s) mod fst n) * snd n + (snd i - snd s) mod snd n in
  exists vs, map_visits_end n s = Ok vs /\ NoDup vs /\
    (forall i, In i vs <-> in_range n i /\ number i < number (fst n - 1, snd n - 1)).
Proof. exact map_visits_clamp_final. Qed.
Print Assumptions C61_clamped.

Example C61_clamped_case : in_range (3, 2) (2, 1) /\
  map_visits_end (E := exact_clamp) (3, 2) (2, 1) = Ok [] /\
  map_visits_end (E := exact_clamp) (3, 2) (1, 0) = Ok [(1, 0); (1, 1); (2, 0)].
Proof. split; [vm_compute; intuition discriminate|]. split; vm_compute; reflexivity. Qed.

Example C61_case : in_range (2, 2) (1, 0) /\
  map_visits_end (E := exact_wrap) (2, 2) (1, 0) = Ok [(1, 0); (1, 1); (0, 0)].
Proof. split; [vm_compute; intuition discriminate|]. vm_compute. reflexivity. Qed.
