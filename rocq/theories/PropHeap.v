(** Property C84: inflation with the priority queue of libstdc++. *)
From Coq Require Import ZArith QArith String List Bool Lia Permutation.
From Verif Require Import Base Mat GridMapMath CostMap Inflation Spec InflationSpec CoreProofs CoreProofs2 CoreFinal InflateProofs InflateFinal InflateEnv Heap Samples PropInflate.
Import ListNotations.
Open Scope Z_scope.

(** The vector of a queue after some pushes and pops, with what has been pushed and not
    yet popped. *)
Inductive queued : list qcell -> list qcell -> Prop :=
| queued_none : queued [] []
| queued_push c l items : queued l items -> queued (heap_push c l) (c :: items)
| queued_pop c l l' pre post : queued l (pre ++ c :: post) -> heap_pop l = Some (c, l') -> queued l' (pre ++ post).

(** The queue holds exactly what was pushed and not popped; pop removes an element of
    least distance, and fails only on an empty queue. *)
Theorem C84_queue : forall l items, queued l items ->
  Permutation l items /\ (heap_pop l = None <-> items = []) /\
  forall c l', heap_pop l = Some (c, l') -> In c items /\ Permutation items (c :: l') /\ forall x, In x items -> (q_dist c <= q_dist x)%Q.
Proof.
  intros l items Q.
  assert (W : heap l /\ Permutation l items).
  { induction Q as [|c l items Q (H & P)|c l l' pre post Q (H & P) K].
    - split; [|reflexivity]. exact (pq_wf_empty _ heap_queue_spec).
    - destruct (heap_push_ok c l H) as (A & B). split; auto. rewrite B. now constructor.
    - destruct (pq_pop_some _ heap_queue_spec c l l' H K) as (A & B & _). cbn in A, B. split; auto.
      apply (Permutation_cons_inv (a := c)). rewrite <- B, P. symmetry. apply Permutation_middle. }
  destruct W as (H & P). split; auto. split.
  - split; intros K.
    + pose proof (pq_pop_none _ heap_queue_spec l H K) as N. cbn in N. subst l. now apply Permutation_nil.
    + subst items. apply Permutation_sym, Permutation_nil in P. now subst l.
  - intros c l' K. destruct (pq_pop_some _ heap_queue_spec c l l' H K) as (_ & B & M). cbn in B, M.
    assert (PI : Permutation items (c :: l')) by (now rewrite <- P, B).
    split; [apply (Permutation_in c (Permutation_sym PI)); now left|]. split; auto.
    intros x Hx. apply (Permutation_in x PI) in Hx as [<-|Hx]; [apply Qle_refl|auto].
Qed.
Print Assumptions C84_queue.

(** So it is one of the queues of C36-C43. *)
Theorem C84_covered : forall (E : Env) F o x m ls rad comp r,
  used F heap_queue o x -> reg_ok' m -> has_layer m ls -> cell_radius rad m = Ok r -> r < 2 ^ 32 - 2 -> dist_ok (hyp F) r ->
  call F heap_queue o x m ls rad comp r (cost_table F (fst (in_force x r (resn m) comp)) (snd (in_force x r (resn m) comp))).
Proof. intros. constructor; auto. constructor. apply heap_queue_spec. Qed.
Print Assumptions C84_covered.

(** Equal distances leave in an order of their own: of four the third comes second. *)
Local Definition q (k : Z) : qcell := QCell 1 (k, 0) (0, 0).
Example C84_case : exists l, queued l [q 3; q 2; q 1; q 0] /\ heap_pop l = Some (q 0, [q 2; q 1; q 3]).
Proof.
  exists (heap_push (q 3) (heap_push (q 2) (heap_push (q 1) (heap_push (q 0) [])))).
  split; [apply queued_push, queued_push, queued_push, queued_push, queued_none|vm_compute; reflexivity].
Qed.

Lemma heap_call m rad comp r : reg_okb m = true -> exists_layer m "a" = true ->
  cell_radius (E := exact_wrap) rad m = Ok r -> r <= 2048 ->
  call (E := exact_wrap) float_env heap_queue (new_inflater _) None m "a" rad comp r (cost_table float_env (resn m) comp).
Proof.
  intros R L C HS. pose proof (cell_radius_nonneg (E := exact_wrap) _ _ _ C) as R0.
  apply (C84_covered exact_wrap float_env (new_inflater _) None); auto.
  - constructor.
  - now apply reg_okb_ok.
  - now apply exists_has.
  - lia.
  - now apply float_env_ok.
Qed.

(** C39 for this queue: in a map of 3x4 cells with obstacles at (0, 1) and (1, 0), the cell
    (2, 3) is closer than 3 cells to the first one and is not inflated. *)
Theorem C84_missed_refuted : exists m b i costs,
  call (E := exact_wrap) float_env heap_queue (new_inflater _) None m "a" 3 slope 3 costs /\
  value_at m "a" b lethal /\ value_at m "a" i free /\ d2 i b < 3 * 3 /\ free < at_offset costs i b /\
  exists o' m', inflate (E := exact_wrap) float_env heap_queue "a" "b" 3 slope (new_inflater _) m = Ret o' m' /\ value_at m' "b" i free.
Proof.
  set (m := room 3 4 [((0, 1), 254); ((1, 0), 254)]).
  exists m, (0, 1), (2, 3), (cost_table float_env (resn m) slope).
  split; [apply heap_call; vm_compute; congruence|].
  split; [apply at_value; vm_compute; reflexivity|]. split; [apply at_value; vm_compute; reflexivity|].
  split; [reflexivity|]. split; [vm_compute; reflexivity|].
  apply (ran _ (fun m' => value_at m' "b" (2, 3) free)). vm_compute. eexists. split; reflexivity.
Qed.
Print Assumptions C84_missed_refuted.
