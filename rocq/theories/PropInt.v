(** Property C80: the index arithmetic fits in an int. *)
From Coq Require Import ZArith QArith Qabs String List Bool Lia.
From Verif Require Import Base Mat GridMapMath GridIter CostMap Iterators Spec BaseLemmas GeoLemmas CoreProofs MoveProofs MoveFinal IterProofs LineProofs DoubleSpec DoubleGeo DoubleMap IntModel IntProofs Samples.
Import ListNotations.
Open Scope Z_scope.

(** Whole-map, window and line loops over a map with fewer than 2^29 rows and
    columns visit the same cells with int as with unbounded integers. *)
Theorem C80_loops : forall (E : Env) n s, in_range n s -> fst n < 2 ^ 29 -> snd n < 2 ^ 29 ->
  (exists vs, map_visits n s = Ok vs /\ imap_visits n s = Some vs) /\
  (forall a sn, in_range n a -> 0 < fst sn -> 0 < snd sn ->
     (fst a - fst s) mod fst n + fst sn <= fst n -> (snd a - snd s) mod snd n + snd sn <= snd n ->
     exists vs, sub_visits n s a sn = Ok vs /\ isub_visits n s a sn = Some vs) /\
  (forall a b, in_range n a -> in_range n b -> exists vs, line_visits a b = Ok vs /\ iline_visits a b = Some vs).
Proof.
  intros E n s S N0 N1. change (2 ^ 29) with limit in *. split; [|split].
  - apply imap_visits_ok; auto. split; auto.
  - intros a sn A P0 P1 Q0 Q1. destruct (sub_visits_final E n s a sn S A P0 P1 Q0 Q1) as (vs & V & _). exists vs. split; auto.
    unfold in_range in S. apply isub_visits_ok; auto; unfold small; auto.
    pose proof (Z.mod_pos_bound (fst a - fst s) (fst n) ltac:(lia)). pose proof (Z.mod_pos_bound (snd a - snd s) (snd n) ltac:(lia)). lia.
  - intros a b A B. eexists. split; [apply line_run_cells|]. unfold in_range, limit in *. apply iline_visits_ok; unfold limit; try lia. apply line_run_cells.
Qed.
Print Assumptions C80_loops.

(** Lookups: positions of cells, cells of positions fewer than 2^29 cells from the
    centre, sizes of windows, their blocks, and indices into a layer of fewer
    than 2^31 cells. *)
Theorem C80_lookup : forall (E : Env), real_or_double E -> forall W m, W <= 2 ^ 44 -> dgeo W m ->
  fst (size m) < 2 ^ 29 -> snd (size m) < 2 ^ 29 ->
  (forall p, close (inject_Z (2 ^ 29) * resn m) p (pos m) ->
     iindex_from_position p (len m) (pos m) (resn m) (size m) (start m) = Some (getIndex m p)) /\
  (forall i, iposition_from_index i (len m) (pos m) (resn m) (size m) (start m) = Some (getPosition m i)) /\
  (forall a b, in_range (size m) a -> in_range (size m) b ->
     isubmap_size_from_corners a b (size m) (start m) = Some (submap_size_from_corners a b (size m) (start m))) /\
  (forall a sn, in_range (size m) a -> 0 <= fst sn <= fst (size m) -> 0 <= snd sn <= snd (size m) ->
     ibuffer_regions a sn (size m) (start m) = Some (buffer_regions a sn (size m) (start m))) /\
  (fst (size m) * snd (size m) < 2 ^ 31 -> forall i, in_range (size m) i -> ilinear_index i (size m) = Some (linear_index i (size m))).
Proof.
  intros E X W m HW G N0 N1. change (2 ^ 29) with limit in *. pose proof (near_real E X) as N. pose proof (d_start _ _ G) as S.
  assert (Z : small (size m)) by (split; auto).
  split; [intros; eapply igetIndex_ok; eauto|]. split; [intros; now apply igetPosition_ok|].
  split; [intros; now apply isubmap_size_ok|]. split; [|intros; now apply ilinear_ok].
  intros a sn A H0 H1. apply ibuffer_ok; auto; try lia. unfold small. lia.
Qed.
Print Assumptions C80_lookup.

(** A move of at most 2^29 cells along either axis. *)
Theorem C80_move : forall (E : Env), real_or_double E -> forall p m, (0 < resn m)%Q -> in_range (size m) (start m) ->
  fst (size m) < 2 ^ 29 -> snd (size m) < 2 ^ 29 -> reg_ok' m -> basics_exist m ->
  close (inject_Z (2 ^ 29) * resn m) p (pos m) -> imove p m = move p m.
Proof. intros E X p m R S N0 N1 G B C. apply imove_ok; auto; [now apply near_real|now split]. Qed.
Print Assumptions C80_move.

Example C80_case : Exact exact_wrap /\ reg_ok' sample /\ basics_exist sample /\ size sample = (5, 4) /\ start sample = (3, 2) /\
  imap_visits (E := exact_wrap) (2, 2) (1, 1) = Some [(1, 1); (1, 0); (0, 1); (0, 0)] /\
  isub_visits (5, 4) (3, 2) (4, 3) (1, 2) = Some [((4, 3), (0, 0)); ((4, 0), (0, 1))] /\
  iline_visits (4, 0) (2, 1) = Some [(4, 0); (3, 1); (2, 1)] /\
  iindex_from_position (E := exact_wrap) (-(1#2), -2#1)%Q (len sample) (pos sample) (resn sample) (size sample) (start sample) =
    Some (getIndex (E := exact_wrap) sample (-(1#2), -2#1)%Q) /\
  imove (E := exact_wrap) (0, -2#1)%Q sample = move (E := exact_wrap) (0, -2#1)%Q sample /\
  start (after (imove (E := exact_wrap) (0, -2#1)%Q) sample) = (1, 2).
Proof.
  split; [exact exact_wrap_Exact|]. split; [exact sample_reg|]. split; [exact sample_basics|]. conj_vm.
Qed.

(** The limits are needed: a move by 2^31 cells converts a number to int that is
    no int. *)
Theorem C80_far_refuted : exists m p r m', geo_ok m /\ reg_ok' m /\ basics_exist m /\
  move (E := exact_wrap) p m = Ret r m' /\ imove (E := exact_wrap) p m = Flt BadCast /\
  (fst p - fst (pos m) == inject_Z (2 ^ 31) * resn m)%Q.
Proof.
  exists sample, (-(1#1) + inject_Z (2 ^ 30), -2#1)%Q. do 2 eexists. split; [exact sample_geo|]. split; [exact sample_reg|]. split; [exact sample_basics|].
  split; [vm_compute; reflexivity|]. conj_vm.
Qed.
Print Assumptions C80_far_refuted.

(** A layer of 2^16 by 2^16 cells has a last cell whose linear index is no int. *)
Theorem C80_linear_refuted : exists n i, in_range n i /\ fst n < 2 ^ 29 /\ snd n < 2 ^ 29 /\
  linear_index i n = 2 ^ 32 - 1 /\ ilinear_index i n = None.
Proof. exists (2 ^ 16, 2 ^ 16), (2 ^ 16 - 1, 2 ^ 16 - 1). conj_vm. Qed.
Print Assumptions C80_linear_refuted.

(** A loop over a map with 2^31 - 1 rows cannot compute its end after a move. *)
Theorem C80_rows_refuted : exists n s it, in_range n s /\ map_iter_new (E := exact_wrap) n s = Ok it /\
  imap_iter_new (E := exact_wrap) n s = None.
Proof. exists (2 ^ 31 - 1, 1), (2, 0). eexists. split; [vm_compute; intuition discriminate|]. split; reflexivity. Qed.
Print Assumptions C80_rows_refuted.
