(** Property C94: what a larger inflation radius does to cells already reached. *)
From Coq Require Import ZArith QArith String List Bool Lia.
From Verif Require Import Base Mat GridMapMath CostMap Inflation Spec InflationSpec CoreProofs CoreProofs2 CoreFinal InflateProofs InflateFinal InflateEnv Heap Samples PropInflate PropHeap.
Import ListNotations.
Open Scope Z_scope.

(** One lethal cell, the same cost computer, two radii: cells within the smaller one get
    the same cost, and so do cells beyond the larger one. *)
Theorem C94_single : forall (E : Env) F P o1 x1 rad1 r1 o2 x2 rad2 r2 comp1 comp2 costs m ls ld b,
  call F P o1 x1 m ls rad1 comp1 r1 costs -> call F P o2 x2 m ls rad2 comp2 r2 costs -> r1 <= r2 ->
  (forall s, value_at m ls s lethal <-> s = b) ->
  exists o1' o2' m1 m2, inflate F P ls ld rad1 comp1 o1 m = Ret o1' m1 /\ inflate F P ls ld rad2 comp2 o2 m = Ret o2' m2 /\
  forall i v, in_range (size m) i -> d2 i b <= r1 * r1 \/ r2 * r2 < d2 i b -> (value_at m1 ld i v <-> value_at m2 ld i v).
Proof.
  intros E F P o1 x1 rad1 r1 o2 x2 rad2 r2 comp1 comp2 costs m ls ld b K1 K2 LE ON.
  assert (R1 : 0 <= r1) by (destruct (call_run F P o1 x1 m ls rad1 comp1 r1 costs ld K1) as (H & _); exact H).
  destruct (C40_single E F P o1 x1 m ls rad1 comp1 r1 costs ld b K1 ON) as (o1' & m1 & RUN1 & H1).
  destruct (C40_single E F P o2 x2 m ls rad2 comp2 r2 costs ld b K2 ON) as (o2' & m2 & RUN2 & H2).
  exists o1', o2', m1, m2. split; [exact RUN1|]. split; [exact RUN2|]. intros i v I D.
  assert (R : reg_ok' m) by apply K1. assert (HL : has_layer m ls) by apply K1.
  destruct HL as [d HD]. destruct (r_mat _ (proj1 R) _ _ HD) as (WF & RW & CL).
  assert (exists w, value_at m ls i w) as [w V].
  { destruct I as [I J]. destruct (proj2 (BaseLemmas.mget_Some_iff d (fst i) (snd i) WF)) as [w G]; [lia|]. exists w, d. auto. }
  specialize (H1 i w V). specialize (H2 i w V).
  assert (FN : forall mm a c, value_at mm ld i a -> value_at mm ld i c -> a = c).
  { intros mm a c (da & A & B) (dc & C & G). congruence. }
  destruct (Z_le_gt_dec (d2 i b) (r1 * r1)), (Z_le_gt_dec (d2 i b) (r2 * r2)); try nia;
    split; intros X; first [pose proof (FN _ _ _ X H1) | pose proof (FN _ _ _ X H2)]; subst v; assumption.
Qed.
Print Assumptions C94_single.

(** With the queue of libstdc++ and two lethal cells, a radius of 4 instead of 3 lowers the cost of a cell. *)
Theorem C94_radius_refuted : exists m i v1 v2 costs,
  call (E := exact_wrap) float_env heap_queue (new_inflater _) None m "a" 3 slope 3 costs /\
  call (E := exact_wrap) float_env heap_queue (new_inflater _) None m "a" 4 slope 4 costs /\
  v2 < v1 /\ value_at m "a" i free /\
  (exists o m', inflate (E := exact_wrap) float_env heap_queue "a" "b" 3 slope (new_inflater _) m = Ret o m' /\ value_at m' "b" i v1) /\
  (exists o m', inflate (E := exact_wrap) float_env heap_queue "a" "b" 4 slope (new_inflater _) m = Ret o m' /\ value_at m' "b" i v2).
Proof.
  set (m := room 4 3 [((0, 1), 254); ((1, 2), 254)]).
  exists m, (3, 0), 172, 169, (cost_table float_env (resn m) slope).
  split; [apply heap_call; vm_compute; congruence|]. split; [apply heap_call; vm_compute; congruence|].
  split; [lia|]. split; [apply at_value; vm_compute; reflexivity|]. split.
  - apply (ran _ (fun m' => value_at m' "b" (3, 0) 172)). vm_compute. eexists. split; reflexivity.
  - apply (ran _ (fun m' => value_at m' "b" (3, 0) 169)). vm_compute. eexists. split; reflexivity.
Qed.
Print Assumptions C94_radius_refuted.

(** One lethal cell at (1, 2), radii 1 and 2: its neighbour has the same cost, the cell two away is only reached by the second. *)
Example C94_case : (forall s, value_at room2 "a" s lethal <-> s = (1, 2)) /\
  (exists o m', inflate (E := exact_wrap) float_env heap_queue "a" "b" 1 slope (new_inflater _) room2 = Ret o m' /\
     value_at m' "b" (1, 1) 253 /\ value_at m' "b" (1, 0) 0) /\
  (exists o m', inflate (E := exact_wrap) float_env heap_queue "a" "b" 2 slope (new_inflater _) room2 = Ret o m' /\
     value_at m' "b" (1, 1) 253 /\ value_at m' "b" (1, 0) 180).
Proof.
  split; [exact room2_single|]. split.
  - apply (ran _ (fun m' => value_at m' "b" (1, 1) 253 /\ value_at m' "b" (1, 0) 0)). vm_compute. split; eexists; split; reflexivity.
  - apply (ran _ (fun m' => value_at m' "b" (1, 1) 253 /\ value_at m' "b" (1, 0) 180)). vm_compute. split; eexists; split; reflexivity.
Qed.
