(** Property C62 with rounding: SubmapGeometry and SubmapIterator in doubles. *)
From Coq Require Import ZArith QArith Qround Qabs String List Bool Lia Lqa.
From Verif Require Import Base Mat GridMapMath GridIter CostMap Iterators Spec DoubleSpec BaseLemmas GeoLemmas CoreProofs IterProofs SubmapProofs
  DoubleGeo DoubleMap DoubleSub Samples PropDouble.
Import ListNotations.
Open Scope Z_scope.

(** C62 with rounding. For a request clear of the border by two blurs, and not smaller
    than eight, SubmapGeometry succeeds and has the size, the position and the
    length of the submap that getSubmap returns, bit by bit; the cell it reports for the
    requested position is that position's cell in the submap; and SubmapIterator visits the cells that
    getSubmap copies. *)
Theorem C62_double : forall (E : Env), real_or_double E -> forall W m q l, 1 <= W < 2 ^ 44 -> dgeo W m -> reg_ok' m ->
  inside_by (- (2 * blur W m)) m (fst q + fst l / 2, snd q + snd l / 2)%Q ->
  inside_by (- (2 * blur W m)) m (fst q - fst l / 2, snd q - snd l / 2)%Q ->
  (8 * blur W m <= fst l)%Q -> (8 * blur W m <= snd l)%Q ->
  exists i sub vs, submap_geometry m q l = Some i /\ getSubmap m q l = Ok (true, sub) /\
    size sub = si_size i /\ pos sub = si_pos i /\ len sub = si_len i /\
    in_range (size sub) (si_req i) /\ close (resn sub / 2 + 2 * blur W m) q (centre sub (si_req i)) /\
    sub_visits (size m) (start m) (si_start i) (si_size i) = Ok vs /\
    NoDup (map snd vs) /\ NoDup (map fst vs) /\ (forall w, In w (map snd vs) <-> in_range (size sub) w) /\
    (forall j w, In (j, w) vs -> in_range (size m) j /\ close (blur W m) (centre sub w) (centre m j) /\
       forall n v, value_at sub n w v <-> value_at m n j v).
Proof.
  intros E X W m q l HW G R U L L0 L1. pose proof (near_real E X) as N. pose proof (d_res _ _ G) as Hr.
  pose proof (blur_pos W m ltac:(lia) Hr) as BP.
  destruct (submap_double_info N W ltac:(lia) m q l G (proj1 R) U L ltac:(lra) ltac:(lra)) as
    (i & sub & HI & WO & Z1 & Z2 & Z3 & Z4 & HG & GS & RS & _ & _ & _ & _ & ER & ST & Cells & Cov & _).
  assert (B2 : (blur (W + 1) sub <= 2 * blur W m)%Q).
  { unfold blur. rewrite ER, inject_Z_plus. change (inject_Z 1) with 1%Q.
    assert (W1 : (1 <= inject_Z W)%Q) by (change 1%Q with (inject_Z 1); rewrite <- Zle_Qle; lia).
    assert (0 <= 16 * ulp * (inject_Z W - 1) * resn m)%Q; [|lra]. apply Qmult_le_0_compat; [|lra]. apply Qmult_le_0_compat; [discriminate|lra]. }
  assert (BP2 : (0 <= blur (W + 1) sub)%Q) by (apply blur_pos; [lia|now rewrite ER]).
  assert (IQ : inside_by (- blur (W + 1) sub) sub q).
  { destruct (Cov (fst q - fst l / 2, snd q - snd l / 2)%Q) as (c1 & _ & c2 & _); cbn [fst snd].
    { setoid_replace (fst q - fst l / 2 - fst q)%Q with (- (fst l / 2))%Q by ring. rewrite Qabs_opp, Qabs_pos; [lra|]. setoid_replace (fst l / 2)%Q with ((1#2) * fst l)%Q by field. lra. }
    { setoid_replace (snd q - snd l / 2 - snd q)%Q with (- (snd l / 2))%Q by ring. rewrite Qabs_opp, Qabs_pos; [lra|]. setoid_replace (snd l / 2)%Q with ((1#2) * snd l)%Q by field. lra. }
    destruct (Cov (fst q + fst l / 2, snd q + snd l / 2)%Q) as (_ & c3 & _ & c4); cbn [fst snd].
    { setoid_replace (fst q + fst l / 2 - fst q)%Q with (fst l / 2)%Q by ring. rewrite Qabs_pos; [lra|]. setoid_replace (fst l / 2)%Q with ((1#2) * fst l)%Q by field. lra. }
    { setoid_replace (snd q + snd l / 2 - snd q)%Q with (snd l / 2)%Q by ring. rewrite Qabs_pos; [lra|]. setoid_replace (snd l / 2)%Q with ((1#2) * snd l)%Q by field. lra. }
    cbn [fst snd] in *. 
    setoid_replace (fst l / 2)%Q with ((1#2) * fst l)%Q in c1 by field. setoid_replace (snd l / 2)%Q with ((1#2) * snd l)%Q in c2 by field.
    setoid_replace (fst l / 2)%Q with ((1#2) * fst l)%Q in c3 by field. setoid_replace (snd l / 2)%Q with ((1#2) * snd l)%Q in c4 by field.
    unfold inside_by. lra. }
  assert (HW2 : W + 1 <= 2 ^ 44) by lia.
  pose proof (inside_down N (W + 1) HW2 sub q GS IQ) as II.
  destruct (index_close N (W + 1) HW2 sub q GS II) as (k & GI & RK & [C0 C1]). { destruct IQ as (A & _). lra. } { destruct IQ as (_ & _ & A & _). lra. }
  rewrite GI in Z4. cbn [snd] in Z4. subst k.
  exists i, sub, (window_list (size m) (start m) (si_start i) (si_size i)).
  destruct (window_list_spec _ _ _ _ WO) as (ND & B & _).
  split; [exact HI|]. split; [exact HG|]. split; [exact Z1|]. split; [exact Z2|]. split; [exact Z3|]. split; [exact RK|].
  split; [split; lra|]. split; [now apply sub_visits_ok|]. split; [now apply window_list_snd|]. split; [exact ND|]. rewrite Z1 in *. split.
  - intros w. rewrite in_map_iff. split.
    + intros ((j & w') & <- & K). apply B in K. apply K.
    + intros K. eexists (_, w). split; [reflexivity|]. apply B. auto.
  - intros j w K. apply B in K. destruct K as [K ->]. 
    destruct (Cells w K) as (D1 & D2 & D3). split; [exact D1|]. split; [exact D2|].
    intros n v. apply SubmapProofs.at_value; auto.
Qed.
Print Assumptions C62_double.

Example C62_double_case : exists i vs, real_or_double (binary64 BWrap) /\ dgeo 11 decimal' /\ reg_ok' decimal' /\
  inside_by (- (2 * blur 11 decimal')) decimal' (tenths 3 + tenths 7 / 2, tenths 1 + tenths 5 / 2)%Q /\
  inside_by (- (2 * blur 11 decimal')) decimal' (tenths 3 - tenths 7 / 2, tenths 1 - tenths 5 / 2)%Q /\
  (8 * blur 11 decimal' <= tenths 7)%Q /\ (8 * blur 11 decimal' <= tenths 5)%Q /\
  submap_geometry (E := binary64 BWrap) decimal' (tenths 3, tenths 1) (tenths 7, tenths 5) = Some i /\
  si_start i = (1, 3) /\ si_size i = (5, 3) /\ si_req i = (2, 1) /\
  sub_visits (size decimal') (start decimal') (si_start i) (si_size i) = Ok vs /\
  firstn 7 vs = [((1, 3), (0, 0)); ((1, 4), (0, 1)); ((1, 5), (0, 2)); ((2, 3), (1, 0)); ((2, 4), (1, 1)); ((2, 5), (1, 2)); ((3, 3), (2, 0))].
Proof.
  eexists. eexists. split; [right; eexists; reflexivity|]. split; [dgeo_vm|]. split; [apply reg_okb_ok; vm_compute; reflexivity|].
  do 4 (split; [vm_compute; intuition discriminate|]). split; [vm_compute; reflexivity|]. do 3 (split; [reflexivity|]).
  split; [vm_compute; reflexivity|]. reflexivity.
Qed.
