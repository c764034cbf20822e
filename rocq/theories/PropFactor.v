(** Property C90: how far inflation may be from the Euclidean distance. *)
From Coq Require Import ZArith QArith String List Bool Lia.
From Verif Require Import Base Mat GridMapMath CostMap Inflation Spec InflationSpec CoreProofs CoreProofs2 CoreFinal InflateProofs InflateFinal InflateEnv Heap Samples PropInflate PropHeap.
Import ListNotations.
Open Scope Z_scope.

(** A cell no further than the radius divided by the square root of 2 from a lethal cell
    gets the cost of a lethal cell at most the square root of 2 times as far. *)
Theorem C90_factor : forall (E : Env) F P o x m ls rad comp r costs ld, call F P o x m ls rad comp r costs ->
  exists o' m', inflate F P ls ld rad comp o m = Ret o' m' /\
  forall b i v, value_at m ls b lethal -> value_at m ls i v -> 2 * d2 i b <= r * r ->
    exists s, value_at m ls s lethal /\ d2 i s <= 2 * d2 i b /\ value_at m' ld i (inflated v (at_offset costs i s)).
Proof.
  intros E F P o x m ls rad comp r costs ld K.
  assert (Hr : 0 <= r) by (destruct (call_run F P o x m ls rad comp r costs ld K) as (Hr & _); exact Hr).
  destruct (C38_reach E F P o x m ls rad comp r costs ld K) as (o' & m' & RUN & H & _).
  exists o', m'. split; [exact RUN|]. intros b i v Vb Vi D.
  assert (S : d1 i b * d1 i b <= 2 * d2 i b) by (unfold d1, d2; pose proof (Z.square_nonneg (Z.abs (fst i - fst b) - Z.abs (snd i - snd b)));
    pose proof (Z.abs_square (fst i - fst b)); pose proof (Z.abs_square (snd i - snd b)); lia).
  assert (N : 0 <= d1 i b) by (unfold d1; lia).
  destruct (H b i v Vb Vi) as (s & Vs & Ds & R); [nia|].
  exists s. split; [exact Vs|]. split; [lia|exact R].
Qed.
Print Assumptions C90_factor.

(** A wall of [k] cells along a diagonal of a room. *)
Definition wall (r c k : Z) : cmap := room r c (map (fun j => ((Z.of_nat j, k - 1 - Z.of_nat j), 254)) (seq 0 (Z.to_nat k))).

(** The factor is attained: the cell [i] gets the cost of a lethal cell [s] although [b] is
    nearer by just that factor. *)
Theorem C90_attained_refuted : exists P m b s i costs,
  call (E := exact_wrap) float_env P (new_inflater P) None m "a" 3 slope 3 costs /\
  value_at m "a" b lethal /\ value_at m "a" s lethal /\ value_at m "a" i free /\ d2 i s = 2 * d2 i b /\
  at_offset costs i s < at_offset costs i b /\
  exists o' m', inflate (E := exact_wrap) float_env P "a" "b" 3 slope (new_inflater P) m = Ret o' m' /\ value_at m' "b" i (at_offset costs i s).
Proof.
  set (m := wall 3 4 2).
  exists (list_queue true), m, (0, 1), (1, 0), (1, 2), (cost_table float_env (resn m) slope).
  split; [apply room_call; vm_compute; congruence|].
  split; [apply at_value; vm_compute; reflexivity|]. split; [apply at_value; vm_compute; reflexivity|].
  split; [apply at_value; vm_compute; reflexivity|]. split; [reflexivity|]. split; [vm_compute; reflexivity|].
  apply (ran _ (fun m' => value_at m' "b" (1, 2) (at_offset (cost_table float_env (resn m) slope) (1, 2) (1, 0)))). vm_compute. eexists. split; reflexivity.
Qed.
Print Assumptions C90_attained_refuted.

(** Beside a diagonal wall a cell one step further than the radius in steps is missed,
    at a Euclidean distance of the square root of 18 for a radius of 5. *)
Theorem C90_wall_refuted : exists P m b i costs,
  call (E := exact_wrap) float_env P (new_inflater P) None m "a" 5 slope 5 costs /\
  value_at m "a" b lethal /\ value_at m "a" i free /\ d1 i b = 5 + 1 /\ d2 i b = 18 /\ free < at_offset costs i b /\
  exists o' m', inflate (E := exact_wrap) float_env P "a" "b" 5 slope (new_inflater P) m = Ret o' m' /\ value_at m' "b" i free.
Proof.
  set (m := wall 8 8 5).
  exists (list_queue true), m, (2, 2), (5, 5), (cost_table float_env (resn m) slope).
  split; [apply room_call; vm_compute; congruence|].
  split; [apply at_value; vm_compute; reflexivity|]. split; [apply at_value; vm_compute; reflexivity|].
  split; [reflexivity|]. split; [reflexivity|]. split; [vm_compute; reflexivity|].
  apply (ran _ (fun m' => value_at m' "b" (5, 5) free)). vm_compute. eexists. split; reflexivity.
Qed.
Print Assumptions C90_wall_refuted.

(** With the queue of libstdc++: one more lethal cell is written, and the inflated cost of
    another cell drops to free space. *)
Theorem C90_obstacle_refuted : exists m1 m2 k i c1 c2 v,
  call (E := exact_wrap) float_env heap_queue (new_inflater _) None m1 "a" 3 slope 3 c1 /\
  call (E := exact_wrap) float_env heap_queue (new_inflater _) None m2 "a" 3 slope 3 c2 /\
  value_at m1 "a" k free /\ at_set "a" k lethal m1 = Ret tt m2 /\ free < v /\
  (exists o m', inflate (E := exact_wrap) float_env heap_queue "a" "b" 3 slope (new_inflater _) m1 = Ret o m' /\ value_at m' "b" i v) /\
  (exists o m', inflate (E := exact_wrap) float_env heap_queue "a" "b" 3 slope (new_inflater _) m2 = Ret o m' /\ value_at m' "b" i free).
Proof.
  set (m1 := room 3 4 [((0, 1), 254)]). set (m2 := after (at_set "a" (1, 0) lethal) m1).
  exists m1, m2, (1, 0), (2, 3), (cost_table float_env (resn m1) slope), (cost_table float_env (resn m2) slope), 172.
  split; [apply heap_call; vm_compute; congruence|]. split; [apply heap_call; vm_compute; congruence|].
  split; [apply at_value; vm_compute; reflexivity|]. split; [vm_compute; reflexivity|]. split; [reflexivity|]. split.
  - apply (ran _ (fun m' => value_at m' "b" (2, 3) 172)). vm_compute. eexists. split; reflexivity.
  - apply (ran _ (fun m' => value_at m' "b" (2, 3) free)). vm_compute. eexists. split; reflexivity.
Qed.
Print Assumptions C90_obstacle_refuted.

(** [C90_factor] at work: two lethal cells, a radius of 3, a cell at the square root of 2
    from the nearer one. *)
Example C90_case : call (E := exact_wrap) float_env (list_queue true) (new_inflater _) None (wall 3 4 2) "a" 3 slope 3 (cost_table float_env 1 slope) /\
  value_at (wall 3 4 2) "a" (0, 1) lethal /\ value_at (wall 3 4 2) "a" (1, 2) free /\ 2 * d2 (1, 2) (0, 1) <= 3 * 3.
Proof.
  split; [apply (room_call true (wall 3 4 2)); vm_compute; congruence|].
  split; [apply at_value; vm_compute; reflexivity|]. split; [apply at_value; vm_compute; reflexivity|]. vm_compute. discriminate.
Qed.
