(** Properties C36 - C43, C63: inflation. *)
From Coq Require Import ZArith QArith Qabs Qround String List Bool Permutation Lia Lqa.
From Verif Require Import Base Mat GridMapMath GridIter CostMap Inflation Spec InflationSpec BaseLemmas GeoLemmas CoreProofs CoreProofs2 CoreFinal MoveProofs AddDataProofs InflateProofs InflateFinal InflateEnv InflateAlias Samples.
Import ListNotations.
Open Scope Z_scope.

(** A call to inflate layer [ls] by the radius [rad], which is [r] cells: a map
    in order that has the layer, and an object with history [x]. The queue may
    break ties at will; the distance table is good up to [r] cells (C41_float).
    [costs] are those of the computer in force (C42). *)
Record call {E : Env} (F : fenv) (P : pqueue) (o : inflater P) (x : option (Z * Q * (Q -> Z)))
            (m : cmap) (ls : string) (rad : Q) (comp : Q -> Z) (r : Z) (costs : Z -> Z -> Z) : Prop :=
  { k_queue : inhabited (pq_spec P);
    k_used : used F P o x;
    k_reg : reg_ok' m;
    k_layer : has_layer m ls;
    k_radius : cell_radius rad m = Ok r;
    k_small : r < 2 ^ 32 - 2;
    k_dist : dist_ok (hyp F) r;
    k_costs : costs = cost_table F (fst (in_force x r (resn m) comp)) (snd (in_force x r (resn m) comp)) }.

Lemma call_run {E : Env} F P o x m ls rad comp r costs ld : call F P o x m ls rad comp r costs ->
  0 <= r /\ exists o' m' hit, inflate F P ls ld rad comp o m = Ret o' m' /\ outcome r costs ls ld m m' hit.
Proof.
  intros [[PS] U R H CR S D ->]. split; [now apply (cell_radius_nonneg rad m)|]. exact (inflate_run F P PS o x ls ld rad comp m r U R H CR S D).
Qed.

(** C36. Every cell keeps its source value, or has it combined with the cost of
    its offset from a lethal cell within the radius. Known costs never go
    down; unknown ones change to inscribed and lethal costs only. *)
Theorem C36_sound : forall (E : Env) F P o x m ls rad comp r costs ld, call F P o x m ls rad comp r costs ->
  exists o' m', inflate F P ls ld rad comp o m = Ret o' m' /\
  forall i v, value_at m ls i v -> exists v', value_at m' ld i v' /\
    (v' = v \/ exists s, value_at m ls s lethal /\ d2 i s <= r * r /\ v' = inflated v (at_offset costs i s)) /\
    (v <> unknown -> v <= v') /\ (v = unknown -> v' = unknown \/ inscribed <= v').
Proof.
  intros E F P o x m ls rad comp r costs ld K. destruct (call_run F P o x m ls rad comp r costs ld K) as (Hr & o' & m' & hit & RUN & O).
  exists o', m'. split; [exact RUN|]. intros i v. eapply outcome_sound; eauto.
Qed.
Print Assumptions C36_sound.

(** C37. Cells further than the radius from every lethal cell keep their source
    value, and nothing but the destination layer is touched. *)
Theorem C37_local : forall (E : Env) F P o x m ls rad comp r costs ld, call F P o x m ls rad comp r costs ->
  exists o' m', inflate F P ls ld rad comp o m = Ret o' m' /\
  (forall i v, value_at m ls i v -> (forall s, value_at m ls s lethal -> r * r < d2 i s) -> value_at m' ld i v) /\
  ((forall s, ~ value_at m ls s lethal) -> get m' ld = get m ls) /\
  (forall l, l <> ld -> get m' l = get m l) /\ same_meta m m' /\
  layers m' = (if exists_layer m ld then layers m else layers m ++ [ld]) /\ reg_ok m'.
Proof.
  intros E F P o x m ls rad comp r costs ld K. destruct (call_run F P o x m ls rad comp r costs ld K) as (Hr & o' & m' & hit & RUN & O).
  exists o', m'. split; [exact RUN|]. split; [intros i v; eapply outcome_far; eauto|].
  split; [intros NL; eapply outcome_none; eauto; apply K|]. split; [apply (o_others _ _ _ _ _ _ _ O)|].
  split; [apply (o_meta _ _ _ _ _ _ _ O)|]. split; [apply (o_layers _ _ _ _ _ _ _ O)|apply (o_reg _ _ _ _ _ _ _ O)].
Qed.
Print Assumptions C37_local.

(** C38. Every cell whose Manhattan distance k to a lethal cell is at most the
    radius is inflated, from a lethal cell at Euclidean distance at most k.
    With a radius of up to two cells that is every cell within the radius. *)
Theorem C38_reach : forall (E : Env) F P o x m ls rad comp r costs ld, call F P o x m ls rad comp r costs ->
  exists o' m', inflate F P ls ld rad comp o m = Ret o' m' /\
  (forall b i v, value_at m ls b lethal -> value_at m ls i v -> d1 i b <= r ->
    exists s, value_at m ls s lethal /\ d2 i s <= d1 i b * d1 i b /\ value_at m' ld i (inflated v (at_offset costs i s))) /\
  (forall b i v, r <= 2 -> value_at m ls b lethal -> value_at m ls i v -> d2 i b <= r * r ->
    exists s, value_at m ls s lethal /\ d2 i s <= r * r /\ value_at m' ld i (inflated v (at_offset costs i s))).
Proof.
  intros E F P o x m ls rad comp r costs ld K. destruct (call_run F P o x m ls rad comp r costs ld K) as (Hr & o' & m' & hit & RUN & O).
  exists o', m'. split; [exact RUN|]. split; intros b i v; [eapply outcome_l1|eapply outcome_small]; eauto; apply K.
Qed.
Print Assumptions C38_reach.

(** C40. With a single lethal cell inflation is exact. *)
Theorem C40_single : forall (E : Env) F P o x m ls rad comp r costs ld b, call F P o x m ls rad comp r costs ->
  (forall s, value_at m ls s lethal <-> s = b) ->
  exists o' m', inflate F P ls ld rad comp o m = Ret o' m' /\
  forall i v, value_at m ls i v ->
    value_at m' ld i (if Z_le_gt_dec (d2 i b) (r * r) then inflated v (at_offset costs i b) else v).
Proof.
  intros E F P o x m ls rad comp r costs ld b K ON. destruct (call_run F P o x m ls rad comp r costs ld K) as (Hr & o' & m' & hit & RUN & O).
  exists o', m'. split; [exact RUN|]. intros i v. eapply outcome_single; eauto; apply K.
Qed.
Print Assumptions C40_single.

(** C41. The call returns: at most one pop per cell and no access outside a
    matrix or table. It can be repeated on the result. Without the source
    layer it throws and leaves the map as it was. *)
Theorem C41_safe : forall (E : Env) F P o x m ls rad comp r costs ld, call F P o x m ls rad comp r costs ->
  exists o' m', inflate F P ls ld rad comp o m = Ret o' m' /\ reg_ok' m' /\ same_meta m m' /\ has_layer m' ls /\
    used F P o' (Some (r, fst (in_force x r (resn m) comp), snd (in_force x r (resn m) comp))).
Proof.
  intros E F P o x m ls rad comp r costs ld K. destruct (call_run F P o x m ls rad comp r costs ld K) as (Hr & o' & m' & hit & RUN & O).
  exists o', m'. split; [exact RUN|]. split; [apply (o_reg _ _ _ _ _ _ _ O)|]. split; [apply (o_meta _ _ _ _ _ _ _ O)|].
  split; [apply exists_has, (o_exists _ _ _ _ _ _ _ O); left; apply exists_has, K|].
  eapply used_call; eauto; apply K.
Qed.
Print Assumptions C41_safe.

Theorem C41_missing : forall (E : Env) F P (o : inflater P) m ls ld rad comp, ~ has_layer m ls ->
  inflate F P ls ld rad comp o m = Exn OutOfRange m.
Proof.
  intros E F P o m ls ld rad comp H. unfold inflate, get. unfold has_layer in H.
  destruct (aget (data m) ls) as [d|]; [|reflexivity]. destruct H. eauto.
Qed.
Print Assumptions C41_missing.

(** The table of any hypot with a relative error of 2^-50, rounded to float, is
    good up to 2048 cells. *)
Theorem C41_float : forall h r, hypot_approx h -> 0 <= r <= 2048 -> dist_ok (fun a b => rne 24 (h a b)) r.
Proof. intros h r H. now apply hypot_dist_ok. Qed.
Print Assumptions C41_float.

(** C42. After any history of calls, the costs are those of the last call that
    changed the radius in cells. *)
Theorem C42_cache : forall (E : Env) F P (PS : pq_spec P) o x m ls rad comp r ld b v, used F P o x ->
  reg_ok' m -> cell_radius rad m = Ok r -> r < 2 ^ 32 - 2 -> dist_ok (hyp F) r ->
  value_at m ls b lethal -> (forall s, value_at m ls s lethal -> s = b) ->
  forall i, value_at m ls i v -> v <> unknown -> d2 i b <= r * r ->
  exists o' m', inflate F P ls ld rad comp o m = Ret o' m' /\
    value_at m' ld i (Z.max v (match x with
      | Some (r0, q0, comp0) => if Z.eq_dec r0 r then at_offset (cost_table F q0 comp0) i b
                                else at_offset (cost_table F (resn m) comp) i b
      | None => at_offset (cost_table F (resn m) comp) i b
      end)).
Proof.
  intros E F P PS o x m ls rad comp r ld b v U R CR HS D Lb ON i V NV DI.
  assert (K : call F P o x m ls rad comp r (cost_table F (fst (in_force x r (resn m) comp)) (snd (in_force x r (resn m) comp)))).
  { constructor; auto. destruct Lb as (d & Hd & _). now exists d. }
  destruct (C40_single E F P o x m ls rad comp r _ ld b K) as (o' & m' & RUN & H).
  { intros s. split; [apply ON|]. intros ->. exact Lb. }
  exists o', m'. split; [exact RUN|]. specialize (H i v V).
  destruct (Z_le_gt_dec (d2 i b) (r * r)); [|lia]. unfold inflated in H. destruct (Z.eq_dec v unknown); [contradiction|].
  destruct x as [[[r0 q0] comp0]|]; [|exact H]. unfold in_force in H.
  destruct (Z.eq_dec r0 r) as [->|N]; [rewrite Z.eqb_refl in H; exact H|].
  assert ((r0 =? r) = false) as Hb by lia. rewrite Hb in H. exact H.
Qed.
Print Assumptions C42_cache.

(** C43. Inflating a layer onto itself or into another one gives the same
    layer. *)
Theorem C43_in_place : forall (E : Env) F P o x m ls rad comp r costs ld, call F P o x m ls rad comp r costs -> ls <> ld ->
  exists o' m1 m2, inflate F P ls ls rad comp o m = Ret o' m1 /\ inflate F P ls ld rad comp o m = Ret o' m2 /\
    get m1 ls = get m2 ld /\ get m2 ls = get m ls.
Proof.
  intros E F P o x m ls rad comp r costs ld K N.
  destruct (call_run F P o x m ls rad comp r costs ls K) as (_ & o1 & m1 & h1 & R1 & O1).
  destruct (call_run F P o x m ls rad comp r costs ld K) as (_ & o2 & m2 & h2 & R2 & O2).
  destruct (inflate_alias F P ls ld rad comp o m o1 m1 o2 m2 (k_reg _ _ _ _ _ _ _ _ _ _ K) N R1 R2) as [<- A].
  exists o1, m1, m2. split; [exact R1|]. split; [exact R2|]. split; [|now apply (o_others _ _ _ _ _ _ _ O2)].
  assert (exists_layer m1 ls = true) as X1 by (apply (o_exists _ _ _ _ _ _ _ O1); auto).
  assert (exists_layer m2 ld = true) as X2 by (apply (o_exists _ _ _ _ _ _ _ O2); auto).
  apply exists_has in X1 as [d Hd]. apply exists_has in X2 as [d' Hd'].
  destruct (r_mat _ (proj1 (o_reg _ _ _ _ _ _ _ O1)) _ _ Hd) as (W & D1 & D2).
  destruct (r_mat _ (proj1 (o_reg _ _ _ _ _ _ _ O2)) _ _ Hd') as (W' & D1' & D2').
  assert (size m1 = size m2).
  { destruct (o_meta _ _ _ _ _ _ _ O1) as (_ & _ & _ & _ & _ & _ & <- & _). now destruct (o_meta _ _ _ _ _ _ _ O2) as (_ & _ & _ & _ & _ & _ & <- & _). }
  unfold get. rewrite Hd, Hd'. f_equal. apply mat_ext; auto; try congruence. intros i j _ _.
  specialize (A (i, j)). unfold at_ in A. rewrite Hd, Hd' in A. cbn [fst snd] in A.
  destruct (mget d i j), (mget d' i j); cbn in A; congruence.
Qed.
Print Assumptions C43_in_place.

(** C63. In exact arithmetic the radius in cells is the radius in metres,
    rounded up to whole cells. *)
Theorem C63_radius : forall (E : Env), Exact E -> forall rad m r, (0 < resn m)%Q -> (0 <= rad)%Q -> r < 2 ^ 32 ->
  (cell_radius rad m = Ok r <-> (inject_Z (r - 1) * resn m < rad /\ rad <= inject_Z r * resn m)%Q).
Proof.
  intros E X rad m r Hm Hr HS. unfold cell_radius.
  destruct (Qeq_bool (resn m) 0) eqn:Z0; [apply Qeq_bool_iff in Z0; lra|]. clear Z0.
  assert (Qceiling (fdiv rad (resn m)) = Qceiling (rad / resn m)) as -> by (apply Qceiling_comp, X).
  assert (K : forall k, (inject_Z k * resn m < rad <-> inject_Z k < rad / resn m)%Q /\ (rad <= inject_Z k * resn m <-> rad / resn m <= inject_Z k)%Q).
  { intros k. split; [|split; intros; [now apply Qle_shift_div_r|]].
    - split; intros H; [now apply Qlt_shift_div_l|]. setoid_replace rad with (rad / resn m * resn m)%Q by (field; lra). now apply Qmult_lt_compat_r.
    - setoid_replace rad with (rad / resn m * resn m)%Q by (field; lra). apply Qmult_le_compat_r; [assumption|lra]. }
  rewrite (proj1 (K (r - 1))), (proj2 (K r)).
  assert (Q0 : (0 <= rad / resn m)%Q) by (apply Qle_shift_div_l; lra). set (q := (rad / resn m)%Q) in *. clearbody q.
  pose proof (Qle_ceiling q) as C1. pose proof (Qceiling_lt q) as C2.
  assert (C0 : 0 <= Qceiling q). { change 0 with (Qceiling 0). now apply Qceiling_resp_le. }
  rewrite (Z.max_r 0) by lia. set (k := Qceiling q) in *. clearbody k.
  assert (U : (inject_Z (r - 1) < q /\ q <= inject_Z r)%Q <-> k = r).
  { split; [|intros <-; auto]. intros [U1 U2].
    assert (r - 1 < k). { rewrite Zlt_Qlt. lra. } assert (k - 1 < r). { rewrite Zlt_Qlt. lra. } lia. }
  rewrite U. destruct (Z.leb_spec (2 ^ 32) k); [split; [discriminate|lia]|]. split; [intros H0; now injection H0|now intros ->].
Qed.
Print Assumptions C63_radius.

(** ** Cases *)

(** r x c cells of 1 m, layer a free but for the given cells. *)
Definition room (r c : Z) (obs : list (idx * Z)) : cmap :=
  after (mfor obs (fun p => at_set "a" (fst p) (snd p)))
   (after (add_value "a" 0)
     (after (setGeometry (E := exact_wrap) (inject_Z r, inject_Z c)%Q 1 (0, 0)%Q) (new_map ["a"%string]))).

(** 254 at 0, 253 up to 1 m, then decreasing. *)
Definition slope (d : Q) : Z := if Qeq_bool d 0 then 254 else if Qle_bool d 1 then 253 else 200 - Qfloor (d * 10).
Definition flat (d : Q) : Z := if Qeq_bool d 0 then 254 else 100.

Definition layer_after {P} (l : string) (x : out cmap (inflater P)) : res mat :=
  match x with Ret _ m => get m l | Exn e _ => Throw e | Flt f => Fault f end.

Lemma ran {A} (x : out cmap A) (Pr : cmap -> Prop) : match x with Ret _ m => Pr m | Exn _ _ => False | Flt _ => False end ->
  exists o' m', x = Ret o' m' /\ Pr m'.
Proof. destruct x as [o' m'| |]; try contradiction. intros H. exists o', m'. auto. Qed.

Lemma room_call late m rad comp r : reg_okb m = true -> exists_layer m "a" = true ->
  cell_radius (E := exact_wrap) rad m = Ok r -> r <= 2048 ->
  call (E := exact_wrap) float_env (list_queue late) (new_inflater _) None m "a" rad comp r (cost_table float_env (resn m) comp).
Proof.
  intros R L C HS. pose proof (cell_radius_nonneg (E := exact_wrap) _ _ _ C) as R0. constructor; auto.
  - constructor. apply list_queue_spec.
  - constructor.
  - now apply reg_okb_ok.
  - now apply exists_has.
  - lia.
  - now apply float_env_ok.
Qed.

Definition room1 := room 5 6 [((1,3), 254); ((0,0), 255); ((4,5), 255); ((1,4), 255); ((2,3), 255); ((2,2), 254)].
Example C36_case : call (E := exact_wrap) float_env (list_queue false) (new_inflater _) None room1 "a" (5#2) slope 3 (cost_table float_env 1 slope) /\
  layer_after "b" (inflate (E := exact_wrap) float_env (list_queue false) "a" "b" (5#2) slope (new_inflater _) room1) =
    Ok (Mat 5 6 [255; 178; 180; 178; 172; 178; 186; 253; 186; 178; 186; 253; 254; 253; 180; 253; 254; 253; 186; 178; 186; 253; 186; 178; 172; 178; 180; 178; 172; 255]).
Proof. split; [apply (room_call false room1); vm_compute; congruence|vm_compute; reflexivity]. Qed.

(** C39. Two obstacles next to each other along a diagonal: a cell strictly
    within the radius of one of them is not reached, if the queue keeps the
    order of equals. *)
Theorem C39_missed_refuted : exists P m b i costs,
  call (E := exact_wrap) float_env P (new_inflater P) None m "a" 3 slope 3 costs /\
  value_at m "a" b lethal /\ value_at m "a" i free /\ d2 i b < 3 * 3 /\ free < at_offset costs i b /\
  exists o' m', inflate (E := exact_wrap) float_env P "a" "b" 3 slope (new_inflater P) m = Ret o' m' /\ value_at m' "b" i free.
Proof.
  set (m := room 3 4 [((0, 1), 254); ((1, 0), 254)]).
  exists (list_queue true), m, (0, 1), (2, 3), (cost_table float_env (resn m) slope).
  split; [apply room_call; vm_compute; congruence|].
  split; [apply at_value; vm_compute; reflexivity|]. split; [apply at_value; vm_compute; reflexivity|].
  split; [reflexivity|]. split; [vm_compute; reflexivity|].
  apply (ran _ (fun m' => value_at m' "b" (2, 3) free)). vm_compute. eexists. split; reflexivity.
Qed.
Print Assumptions C39_missed_refuted.

(** The result depends on the order of equals. *)
Theorem C39_order_refuted : exists P1 P2 m costs,
  call (E := exact_wrap) float_env P1 (new_inflater P1) None m "a" 3 slope 3 costs /\
  call (E := exact_wrap) float_env P2 (new_inflater P2) None m "a" 3 slope 3 costs /\
  layer_after "b" (inflate (E := exact_wrap) float_env P1 "a" "b" 3 slope (new_inflater P1) m) <>
  layer_after "b" (inflate (E := exact_wrap) float_env P2 "a" "b" 3 slope (new_inflater P2) m).
Proof.
  set (m := room 3 4 [((1, 3), 254); ((2, 2), 254)]).
  exists (list_queue true), (list_queue false), m, (cost_table float_env (resn m) slope).
  split; [apply room_call; vm_compute; congruence|]. split; [apply room_call; vm_compute; congruence|]. vm_compute. discriminate.
Qed.
Print Assumptions C39_order_refuted.

Definition room2 := room 4 5 [((1, 2), 254); ((0, 0), 255); ((1, 4), 90); ((2, 1), 10); ((1, 1), 255)].
Lemma room2_single s : value_at room2 "a" s lethal <-> s = (1, 2).
Proof.
  split; [|intros ->; apply at_value; vm_compute; reflexivity]. intros V.
  pose proof (value_range _ _ _ _ (proj1 (reg_okb_ok room2 eq_refl)) V) as RG. apply at_value in V.
  destruct s as [i j]. destruct RG as [RI RJ]. change (fst (size room2)) with 4 in RI. change (snd (size room2)) with 5 in RJ. cbn [fst snd] in *.
  assert (HI : i = 0 \/ i = 1 \/ i = 2 \/ i = 3) by lia. assert (HJ : j = 0 \/ j = 1 \/ j = 2 \/ j = 3 \/ j = 4) by lia.
  revert V. destruct HI as [-> |[-> |[-> | ->]]], HJ as [-> |[-> |[-> |[-> | ->]]]]; vm_compute; intros; congruence.
Qed.
Example C40_case : call (E := exact_wrap) float_env (list_queue true) (new_inflater _) None room2 "a" 2 slope 2 (cost_table float_env 1 slope) /\
  (forall s, value_at room2 "a" s lethal <-> s = (1, 2)) /\
  layer_after "a" (inflate (E := exact_wrap) float_env (list_queue true) "a" "a" 2 slope (new_inflater _) room2) =
    Ok (Mat 4 5 [255; 180; 0; 0; 186; 253; 186; 0; 253; 254; 253; 180; 186; 253; 186; 0; 0; 180; 0; 0]).
Proof. split; [apply room_call; vm_compute; congruence|]. split; [exact room2_single|]. vm_compute. reflexivity. Qed.

(** The same object, first with [slope], then with [flat]: the costs stay those
    of [slope]. Another radius brings in the new ones. *)
Definition corridor : cmap := room 1 4 [((0, 0), 254)].
Definition again (o : inflater (list_queue true)) (rad : Q) (comp : Q -> Z) :=
  inflate (E := exact_wrap) float_env (list_queue true) "a" "b" rad comp o corridor.
Definition after_call {P} (x : out cmap (inflater P)) : inflater P := match x with Ret o _ => o | _ => new_inflater P end.

Lemma used_once {E : Env} F P ls ld rad comp m r : cell_radius rad m = Ok r -> r < 2 ^ 32 - 2 ->
  match inflate F P ls ld rad comp (new_inflater P) m with Ret _ _ => true | _ => false end = true ->
  used F P (after_call (inflate F P ls ld rad comp (new_inflater P) m)) (Some (r, resn m, comp)).
Proof.
  intros CR HS. destruct (inflate F P ls ld rad comp (new_inflater P) m) as [o m'| |] eqn:H; try discriminate. intros _.
  exact (used_call F P (new_inflater P) None ls ld rad comp m o m' r (used_new F P) CR HS H).
Qed.

Example C42_case :
  used (E := exact_wrap) float_env (list_queue true) (after_call (again (new_inflater _) 2 slope)) (Some (2, resn corridor, slope)) /\
  layer_after "b" (again (after_call (again (new_inflater _) 2 slope)) 2 flat) = Ok (Mat 1 4 [254; 253; 180; 0]) /\
  layer_after "b" (again (new_inflater _) 2 flat) = Ok (Mat 1 4 [254; 100; 100; 0]) /\
  layer_after "b" (again (after_call (again (new_inflater _) 2 slope)) 3 flat) = Ok (Mat 1 4 [254; 100; 100; 100]).
Proof.
  split; [|split; [|split]]; [|vm_compute; reflexivity ..].
  unfold again. apply used_once; [vm_compute; reflexivity|reflexivity|vm_compute; reflexivity].
Qed.

(** A new object and a radius of 2^32 - 1 cells: the radius equals the initial
    one, the tables stay empty. *)
Theorem C41_sentinel_refuted : exists m rad comp, reg_ok m /\ has_layer m "a" /\
  cell_radius (E := exact_wrap) rad m = Ok (2 ^ 32 - 1) /\
  inflate (E := exact_wrap) float_env (list_queue true) "a" "b" rad comp (new_inflater _) m = Flt OutOfBounds.
Proof.
  exists (room 1 1 [((0, 0), 254)]), (inject_Z (2 ^ 32 - 1)), slope. split; [apply reg_okb_ok; vm_compute; reflexivity|].
  split; [apply exists_has; vm_compute; reflexivity|]. conj_vm.
Qed.
Print Assumptions C41_sentinel_refuted.

(** Beyond 2048 cells the rounding to float shows: hypot(4096, 1) is 4096. *)
Example C41_float_case : dist_ok (hyp float_env) 3 /\ Qeq_bool (hyp float_env 4096 1) 4096 = true.
Proof. split; [apply float_env_ok; lia|vm_compute; reflexivity]. Qed.

(** A radius of 0.3 m given as a float is 4 cells of 0.1 m. *)
Theorem C63_float_refuted : exists m, resn m = rne 53 (1#10) /\ cell_radius (E := binary64 BWrap) (rne 24 (3#10)) m = Ok 4.
Proof.
  exists (after (setGeometry (E := binary64 BWrap) (1#1, 1#1)%Q (rne 53 (1#10)) (0, 0)%Q) (new_map ["a"%string])). conj_vm.
Qed.
Print Assumptions C63_float_refuted.
Example C63_case : (inject_Z 2 * resn room1 < 5#2 /\ 5#2 <= inject_Z 3 * resn room1)%Q /\ cell_radius (E := exact_wrap) (5#2) room1 = Ok 3.
Proof. conj_vm. Qed.

(** C64. On a moved map, neighbours in the buffer are inflated instead of
    neighbours on the ground. *)
Theorem C64_moved_refuted : exists m b i j, geo_ok m /\ reg_ok m /\ value_at m "a" b lethal /\
  value_at m "a" i free /\ value_at m "a" j free /\
  (dist2 (centre m i) (centre m b) == 1)%Q /\ (dist2 (centre m j) (centre m b) == 16)%Q /\ 
  exists o' m', inflate (E := exact_wrap) float_env (list_queue true) "a" "b" 1 slope (new_inflater _) m = Ret o' m' /\
    value_at m' "b" i free /\ value_at m' "b" j inscribed.
Proof.
  set (m := after (mfor (all_cells (5, 5)) (fun i => at_set "a" i (if idx_eqb i (0, 0) then 254 else 0)))
     (after (move (E := exact_wrap) (-1#1, 0)%Q) (room 5 5 []))).
  exists m, (0, 0), (4, 0), (1, 0). split; [apply geo_okb_ok; vm_compute; reflexivity|].
  split; [apply reg_okb_ok; vm_compute; reflexivity|].
  split; [apply at_value; vm_compute; reflexivity|]. split; [apply at_value; vm_compute; reflexivity|]. split; [apply at_value; vm_compute; reflexivity|].
  split; [vm_compute; reflexivity|]. split; [vm_compute; reflexivity|].
  apply (ran _ (fun m' => value_at m' "b" (4, 0) free /\ value_at m' "b" (1, 0) inscribed)).
  vm_compute. split; eexists; split; reflexivity.
Qed.
Print Assumptions C64_moved_refuted.
