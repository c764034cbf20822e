(** CostMap::getSubmap and SubmapGeometry. *)
From Coq Require Import ZArith QArith Qround Qabs Qreduction Qfield String List Bool Lia Lqa.
From Coq Require Import ZifyBool.
From Verif Require Import Base Mat GridMapMath GridIter CostMap History BaseLemmas Spec GeoLemmas CoreProofs CoreProofs2 CoreFinal IterProofs MoveProofs.
Import ListNotations.
Open Scope Z_scope.

(** ** The four-region copy *)

(** One axis of a window: before the start line, after it, or across the seam. *)
Lemma axis_cases n s tl sn : 0 <= s < n -> 0 <= tl < n -> 0 < sn -> (tl - s) mod n + sn <= n ->
  (s <= tl /\ tl + sn <= n /\ (tl + sn - 1) mod n = tl + sn - 1) \/
  (s <= tl /\ n < tl + sn /\ tl + sn <= n + s /\ (tl + sn - 1) mod n = tl + sn - 1 - n) \/
  (tl < s /\ tl + sn <= s /\ (tl + sn - 1) mod n = tl + sn - 1).
Proof.
  intros Hs Ht Hn H. rewrite mod_diff in H by auto.
  destruct (Z.leb_spec s tl); rewrite mod_sum by lia.
  - destruct (Z_le_gt_dec (tl + sn) n); [left|right; left]; bsplit; lia.
  - right; right. bsplit; lia.
Qed.

Lemma mcopy_ok dst di dj src si sj h w : wf_mat dst -> wf_mat src ->
  0 <= di -> 0 <= h -> di + h <= mrows dst -> 0 <= dj -> 0 <= w -> dj + w <= mcols dst ->
  0 <= si -> si + h <= mrows src -> 0 <= sj -> sj + w <= mcols src ->
  exists d', mcopy dst di dj src si sj h w = Some d' /\ wf_mat d' /\ mrows d' = mrows dst /\ mcols d' = mcols dst /\
  (forall i j, 0 <= i < mrows dst -> 0 <= j < mcols dst ->
     mget d' i j = if in_block di dj h w i j then mget src (si + (i - di)) (sj + (j - dj))
                   else mget dst i j).
Proof.
  intros W Ws. intros. destruct (mcopy dst di dj src si sj h w) as [d'|] eqn:K.
  - exists d'. split; auto. eapply mcopy_spec; eauto.
  - exfalso. unfold mcopy in K. rewrite (proj2 (block_ok_iff dst di dj h w)) in K by lia.
    rewrite (proj2 (block_ok_iff src si sj h w)) in K by lia. discriminate.
Qed.

Lemma copy_window n s tl sn src dst : window_ok n s tl sn -> wf_mat src -> wf_mat dst ->
  mrows src = fst n -> mcols src = snd n -> mrows dst = fst sn -> mcols dst = snd sn ->
  match buffer_regions tl sn n s with
  | None => False
  | Some bs => exists d', copy_regions src dst bs = Ok d' /\
    wf_mat d' /\ mrows d' = fst sn /\ mcols d' = snd sn /\
    forall w, in_range sn w ->
      mget d' (fst w) (snd w) = mget src (fst (window_cell n s tl w)) (snd (window_cell n s tl w))
  end.
Proof.
  intros (Hs & Ht & P0 & P1 & H0 & H1) Ws Wd R0 R1 D0 D1.
  destruct Hs as [S0 S1], Ht as [T0 T1].
  destruct n as [n0 n1], s as [s0 s1], tl as [t0 t1], sn as [a b]; cbn [fst snd] in *.
  unfold buffer_regions.
  rewrite unwrap_index_mod by (unfold in_range; cbn; lia). cbn [fst snd].
  replace ((n0 <? (t0 - s0) mod n0 + a) || (n1 <? (t1 - s1) mod n1 + b)) with false by lia.
  pose proof (Z.mod_pos_bound (t0 - s0) n0 ltac:(lia)). pose proof (Z.mod_pos_bound (t1 - s1) n1 ltac:(lia)).
  rewrite wrap_index_mod by (unfold in_range; cbn; lia). cbn [fst snd].
  replace (((t0 - s0) mod n0 + a - 1 + s0) mod n0) with ((t0 + a - 1) mod n0)
    by (replace ((t0 - s0) mod n0 + a - 1 + s0) with ((t0 - s0) mod n0 + (a - 1 + s0)) by lia;
        rewrite Zplus_mod_idemp_l; f_equal; lia).
  replace (((t1 - s1) mod n1 + b - 1 + s1) mod n1) with ((t1 + b - 1) mod n1)
    by (replace ((t1 - s1) mod n1 + b - 1 + s1) with ((t1 - s1) mod n1 + (b - 1 + s1)) by lia;
        rewrite Zplus_mod_idemp_l; f_equal; lia).
  assert (Wc : forall w, in_range (a, b) w -> window_cell (n0, n1) (s0, s1) (t0, t1) w =
     ((if t0 + fst w <? n0 then t0 + fst w else t0 + fst w - n0),
      (if t1 + snd w <? n1 then t1 + snd w else t1 + snd w - n1))).
  { intros w [W0 W1]. cbn [fst snd] in *. unfold window_cell. cbn [fst snd].
    rewrite !mod_sum by lia. f_equal; bsplit; lia. }
  assert (Fin : forall d', (forall w, in_range (a, b) w -> mget d' (fst w) (snd w) = mget src
      (if t0 + fst w <? n0 then t0 + fst w else t0 + fst w - n0)
      (if t1 + snd w <? n1 then t1 + snd w else t1 + snd w - n1)) ->
     forall w, in_range (a, b) w -> mget d' (fst w) (snd w) = 
       mget src (fst (window_cell (n0, n1) (s0, s1) (t0, t1) w)) (snd (window_cell (n0, n1) (s0, s1) (t0, t1) w))).
  { intros d' K w Hw. rewrite K, Wc by auto. reflexivity. }
  destruct (axis_cases n0 s0 t0 a S0 T0 P0 H0) as [(A1 & A2 & ->)|[(A1 & A2 & A3 & ->)|(A1 & A2 & ->)]];
  destruct (axis_cases n1 s1 t1 b S1 T1 P1 H1) as [(B1 & B2 & ->)|[(B1 & B2 & B3 & ->)|(B1 & B2 & ->)]];
  unfold get_quadrant; cbn [fst snd];
  repeat match goal with
    | |- context [?x <=? ?y] => (replace (x <=? y) with true by lia) || (replace (x <=? y) with false by lia)
  end; cbn iota;
  cbn [copy_regions copy_region rstart rsize rquad fst snd];
  repeat match goal with |- context [mcopy ?d ?di ?dj ?sr ?si ?sj ?h ?w] =>
    let d' := fresh "d" in let C := fresh "C" in let W := fresh "W" in
    let E1 := fresh "E" in let E2 := fresh "E" in let V := fresh "V" in
    destruct (mcopy_ok d di dj sr si sj h w) as (d' & C & W & E1 & E2 & V);
    [assumption|assumption|lia..|rewrite C; cbn [of_opt rbind]] end;
  (eexists; split; [reflexivity|]; split; [assumption|]; split; [lia|]; split; [lia|];
   apply Fin; intros w [W0' W1']; cbn [fst snd] in W0', W1';
   repeat match goal with V : forall i j, _ -> _ -> mget ?d i j = _ |- context [mget ?d _ _] =>
      rewrite V by lia; unfold in_block;
      match goal with |- (if ?b then _ else _) = _ => destruct b eqn:? end end;
   bsplit; try lia; f_equal; lia).
Qed.

Definition win_copy (n s tl sn : idx) (d d' : mat) : Prop :=
  wf_mat d' /\ mrows d' = fst sn /\ mcols d' = snd sn /\
  forall w, in_range sn w ->
    mget d' (fst w) (snd w) = mget d (fst (window_cell n s tl w)) (snd (window_cell n s tl w)).

Lemma copy_layers_ok n s tl sn bs : window_ok n s tl sn -> buffer_regions tl sn n s = Some bs ->
  forall src dst, NoDup (akeys src) ->
  (forall k d, aget src k = Some d -> wf_mat d /\ mrows d = fst n /\ mcols d = snd n) ->
  (forall k, In k (akeys src) -> exists d0, aget dst k = Some d0 /\ wf_mat d0 /\ mrows d0 = fst sn /\ mcols d0 = snd sn) ->
  exists dst', copy_layers src dst bs = Ok dst' /\ akeys dst' = akeys dst /\
    (forall k, aget src k = None -> aget dst' k = aget dst k) /\
    (forall k d, aget src k = Some d -> exists d', aget dst' k = Some d' /\ win_copy n s tl sn d d').
Proof.
  intros W HB. induction src as [|[k d] src IH]; intros dst ND HS HD.
  - exists dst. split; [reflexivity|]. split; auto. split; auto. discriminate.
  - cbn [akeys map fst] in ND. inversion ND as [|? ? Nk ND']; subst. 
    destruct (HD k) as (d0 & Hd0 & W0 & R0 & C0); [left; reflexivity|].
    destruct (HS k d) as (Wd & Rd & Cd). { simpl. now rewrite String.eqb_refl. }
    pose proof (copy_window n s tl sn d d0 W Wd W0 Rd Cd R0 C0) as K. rewrite HB in K.
    destruct K as (d1 & K1 & K2 & K3 & K4 & K5).
    cbn [copy_layers]. rewrite Hd0, K1. cbn [rbind].
    assert (amem dst k = true) as Hm by (unfold amem; now rewrite Hd0).
    unfold aput. rewrite Hm.
    destruct (IH (aset dst k d1)) as (dst' & I1 & I2 & I3 & I4); auto.
    { intros k' d' H. apply (HS k' d'). simpl. destruct (String.eqb_spec k' k); auto.
      subst. exfalso. apply Nk. apply aget_In. eauto. }
    { intros k' H. rewrite aget_aset. destruct (String.eqb_spec k' k).
      - rewrite Hm. eauto.
      - apply HD. right. exact H. }
    exists dst'. split; auto. split; [rewrite I2; apply akeys_aset|]. split.
    + intros k' H. simpl in H. destruct (String.eqb_spec k' k); [discriminate|].
      rewrite I3 by auto. rewrite aget_aset. destruct (String.eqb_spec k' k); congruence.
    + intros k' d' H. simpl in H. destruct (String.eqb_spec k' k) as [->|Ne].
      * injection H as <-. exists d1. rewrite I3.
        { rewrite aget_aset, String.eqb_refl, Hm. split; auto. unfold win_copy; auto. }
        { apply aget_None. exact Nk. }
      * apply I4; auto.
Qed.

(** ** getSubmap *)

Section Sub.
Context {E : Env} (X : Exact E).

Definition sub_ok (m sub : cmap) : Prop :=
  geo_ok sub /\ reg_ok sub /\ layers sub = layers m /\ basic sub = basic m /\ frame sub = frame m /\ stamp sub = stamp m /\
  (resn sub == resn m)%Q /\ start sub = (0, 0) /\
  (forall i, in_range (size sub) i -> exists j, in_range (size m) j /\ veq (centre sub i) (centre m j) /\
     forall l, at_ sub l i = at_ m l j).

(** The information computed for a request, unfolded. *)
Lemma submap_information_ok m q l i : geo_ok m ->
  submap_information q l (len m) (pos m) (resn m) (size m) (start m) = Some i ->
  exists tu bu, in_range (size m) tu /\ in_range (size m) bu /\
    si_start i = wrap_index tu (size m) (start m) /\
    si_size i = (fst bu - fst tu + 1, snd bu - snd tu + 1) /\
    (fst (si_len i) == inject_Z (fst (si_size i)) * resn m)%Q /\
    (snd (si_len i) == inject_Z (snd (si_size i)) * resn m)%Q /\
    (fst (si_pos i) == centre1 (fst (len m)) (fst (pos m)) (resn m) (fst tu) + resn m / 2 - fst (si_len i) / 2)%Q /\
    (snd (si_pos i) == centre1 (snd (len m)) (snd (pos m)) (resn m) (snd tu) + resn m / 2 - snd (si_len i) / 2)%Q /\
    (fst (pos m) + fst (len m) / 2 - inject_Z (fst bu + 1) * resn m < fst q <= fst (pos m) + fst (len m) / 2 - inject_Z (fst tu) * resn m)%Q /\
    (snd (pos m) + snd (len m) / 2 - inject_Z (snd bu + 1) * resn m < snd q <= snd (pos m) + snd (len m) / 2 - inject_Z (snd tu) * resn m)%Q /\
    contains (resn m) (centre m (wrap_index tu (size m) (start m))) 
      (bound_position (fadd (fst q) (fmul (1#2) (fst l)), fadd (snd q) (fmul (1#2) (snd l))) (len m) (pos m)) /\
    contains (resn m) (centre m (wrap_index bu (size m) (start m))) 
      (bound_position (fsub (fst q) (fmul (1#2) (fst l)), fsub (snd q) (fmul (1#2) (snd l))) (len m) (pos m)).
Proof.
  intros G. unfold submap_information.
  set (tlp := bound_position _ (len m) (pos m)). set (brp := bound_position _ (len m) (pos m)).
  destruct (index_from_position tlp (len m) (pos m) (resn m) (size m) (start m)) as [ok1 tli] eqn:K1.
  destruct ok1; [|discriminate]. cbn [negb].
  destruct (index_from_position brp (len m) (pos m) (resn m) (size m) (start m)) as [ok2 bri] eqn:K2.
  destruct ok2; [|discriminate]. cbn [negb].
  change (getIndex m tlp = (true, tli)) in K1. change (getIndex m brp = (true, bri)) in K2.
  assert (inside m tlp) as I1 by (apply (isInside_iff X); rewrite <- fst_getIndex, K1; reflexivity).
  assert (inside m brp) as I2 by (apply (isInside_iff X); rewrite <- fst_getIndex, K2; reflexivity).
  destruct (getIndex_contains X m tlp G I1) as [R1 C1]. rewrite K1 in R1, C1. cbn [snd] in R1, C1.
  destruct (getIndex_contains X m brp G I2) as [R2 C2]. rewrite K2 in R2, C2. cbn [snd] in R2, C2.
  change (position_from_index tli (len m) (pos m) (resn m) (size m) (start m)) with (getPosition m tli).
  destruct (getPosition_centre X m tli G R1) as (ctr & Hc & Ec). rewrite Hc.
  set (tu := unwrap_index tli (size m) (start m)). set (bu := unwrap_index bri (size m) (start m)).
  set (sz := (fst bu - fst tu + 1, snd bu - snd tu + 1)).
  set (sl := (fmul (inject_Z (fst sz)) (resn m), fmul (inject_Z (snd sz)) (resn m))).
  set (sp := (fsub (fadd (fst ctr) (fmul (1 # 2) (resn m))) (fmul (1 # 2) (fst sl)),
              fsub (fadd (snd ctr) (fmul (1 # 2) (resn m))) (fmul (1 # 2) (snd sl)))).
  cbn [fst snd]. 
  destruct (index_from_position q _ _ _ _ _) as [ok3 rq] eqn:K3. destruct ok3; [|discriminate].
  intros H. injection H as <-. cbn [si_start si_size si_len si_pos si_req].
  pose proof (g_start _ G) as Hs. pose proof (g_res _ G) as Hr.
  exists tu, bu. split; [apply unwrap_in_range; auto|]. split; [apply unwrap_in_range; auto|].
  split; [unfold tu; symmetry; apply wrap_unwrap; auto|]. split; [reflexivity|]. cbn [fst snd].
  destruct Ec as [Ec0 Ec1]. unfold centre in Ec0, Ec1.
  assert (Etu : tu = ((fst tli - fst (start m)) mod fst (size m), (snd tli - snd (start m)) mod snd (size m))).
  { unfold tu. apply unwrap_index_mod; auto. }
  change (tu = world_index m tli) in Etu. rewrite <- Etu in Ec0, Ec1. cbn [fst snd] in Ec0, Ec1.
  assert (L0 : (fst sl == inject_Z (fst sz) * resn m)%Q) by apply (fmul_eq X).
  assert (L1 : (snd sl == inject_Z (snd sz) * resn m)%Q) by apply (fmul_eq X).
  assert (P0 : (fst sp == centre1 (fst (len m)) (fst (pos m)) (resn m) (fst tu) + resn m / 2 - fst sl / 2)%Q).
  { cbn [fst sp]. exqX X. rewrite Ec0. field. }
  assert (P1 : (snd sp == centre1 (snd (len m)) (snd (pos m)) (resn m) (snd tu) + resn m / 2 - snd sl / 2)%Q).
  { cbn [snd sp]. exqX X. rewrite Ec1. field. }
  split; auto. split; auto. split; auto. split; auto.
  assert (K4 := f_equal fst K3). unfold index_from_position in K4. cbn [fst] in K4.
  unfold position_within_map in K4. apply andb_true_iff in K4. destruct K4 as [K40 K41].
  apply (within1_iff X) in K40, K41. fold sp in K40, K41. rewrite P0, L0 in K40. rewrite P1, L1 in K41.
  unfold centre1 in K40, K41. cbn [fst snd sz] in K40, K41.
  assert (Q0 : forall a b c x L, 
     (c + L / 2 - (inject_Z b + (1 # 2)) * resn m + resn m / 2 - inject_Z (a - b + 1) * resn m / 2 - inject_Z (a - b + 1) * resn m / 2 < x /\
      x <= c + L / 2 - (inject_Z b + (1 # 2)) * resn m + resn m / 2 - inject_Z (a - b + 1) * resn m / 2 + inject_Z (a - b + 1) * resn m / 2 ->
      c + L / 2 - inject_Z (a + 1) * resn m < x /\ x <= c + L / 2 - inject_Z b * resn m)%Q).
  { intros a b c x L [A B]. split.
    - eapply Qle_lt_trans; [|exact A]. unfold Z.sub. rewrite !inject_Z_plus, inject_Z_opp. apply Qle_lteq. right. field.
    - eapply Qle_trans; [exact B|]. unfold Z.sub. rewrite !inject_Z_plus, inject_Z_opp. apply Qle_lteq. right. field. }
  split; [now apply Q0|]. split; [now apply Q0|].
  unfold tu, bu. rewrite !wrap_unwrap by auto. split; auto.
Qed.

Lemma setGeometry_sub l r p m n : reg_ok m -> 0 < fst n -> 0 < snd n -> (0 < r)%Q ->
  (fst l == inject_Z (fst n) * r)%Q -> (snd l == inject_Z (snd n) * r)%Q ->
  exists m', setGeometry l r p m = Ret tt m' /\ reg_ok m' /\ geo_ok m' /\ size m' = n /\
    resn m' = r /\ pos m' = p /\ start m' = (0, 0) /\
    layers m' = layers m /\ basic m' = basic m /\ frame m' = frame m /\ stamp m' = stamp m /\
    (forall l, exists_layer m' l = exists_layer m l) /\ akeys (data m') = akeys (data m).
Proof.
  intros R N0 N1 Hr L0 L1.
  assert (Pos : forall k : Z, 0 < k -> (0 < inject_Z k * r)%Q).
  { intros k Hk. apply Qmult_lt_0_compat; auto. change 0%Q with (inject_Z 0). now rewrite <- Zlt_Qlt. }
  destruct (setGeometry_ok X l r p m R) as (m' & H & R' & S0 & S1 & E0 & E1 & _ & _ & T); auto.
  { rewrite L0. auto. } { rewrite L1; auto. }
  assert (size m' = n) as Hn.
  { assert (forall a k, (inject_Z a - (1#2) <= inject_Z k * r / r < inject_Z a + (1#2))%Q -> a = k) as K.
    { intros a k [A B]. assert (inject_Z k * r / r == inject_Z k)%Q as Q by (field; lra). rewrite Q in A, B.
      assert (inject_Z a < inject_Z (k + 1))%Q as A' by (injz; lra).
      assert (inject_Z k < inject_Z (a + 1))%Q as B' by (injz; lra).
      rewrite <- Zlt_Qlt in A', B'. lia. }
    rewrite L0 in S0. rewrite L1 in S1. apply K in S0, S1. destruct (size m'), n; cbn in *; congruence. }
  exists m'. split; auto. split; auto. destruct T as (T1 & T2 & T3 & T4 & T5 & T6 & T7 & T8 & _).
  assert (geo_ok m').
  { constructor.
    - rewrite T1; auto.
    - rewrite Hn; auto.
    - rewrite T1. split; auto.
    - rewrite T3. rewrite Hn. unfold in_range; cbn; lia. }
  split; auto. split; auto. split; auto. split; auto. split; auto. split; auto. split; auto. split; auto. split; auto.
  split; auto. unfold setGeometry in H. destruct (negb _); [discriminate|].
  unfold bind, resize, clearAll, modify in H. injection H as <-. cbn [data set_geo set_data set_size].
  unfold akeys. rewrite !map_map. apply map_ext. intros [? ?]; reflexivity.
Qed.

Lemma getSubmap_some m q l i : geo_ok m -> reg_ok m ->
  submap_information q l (len m) (pos m) (resn m) (size m) (start m) = Some i ->
  exists sub, getSubmap m q l = Ok (true, sub) /\ sub_ok m sub /\
    size sub = si_size i /\ pos sub = si_pos i /\ resn sub = resn m /\
    window_ok (size m) (start m) (si_start i) (si_size i) /\
    forall w, in_range (size sub) w -> let j := window_cell (size m) (start m) (si_start i) w in
      in_range (size m) j /\ veq (centre sub w) (centre m j) /\ forall l, at_ sub l w = at_ m l j.
Proof.
  intros G R HI. pose proof (g_res _ G) as Hr.
  destruct (submap_information_ok m q l i G HI) as (tu & bu & Rt & Rb & Hst & Hsz & Ln0 & Ln1 & P0 & P1 & Q0 & Q1 & _).
  assert (forall a b c x r : Q, (0 < r -> c - (a + 1) * r < x <= c - b * r -> b < a + 1)%Q) as Pz.
  { intros a b c x r Hp [A B]. assert (b * r < (a + 1) * r)%Q as K by lra. apply Qmult_lt_r in K; auto. }
  assert (N0 : 0 < fst (si_size i)).
  { rewrite Hsz. cbn [fst]. rewrite inject_Z_plus in Q0. apply Pz in Q0; auto.
    change 1%Q with (inject_Z 1) in Q0. rewrite <- inject_Z_plus, <- Zlt_Qlt in Q0. lia. }
  assert (N1 : 0 < snd (si_size i)).
  { rewrite Hsz. cbn [snd]. rewrite inject_Z_plus in Q1. apply Pz in Q1; auto.
    change 1%Q with (inject_Z 1) in Q1. rewrite <- inject_Z_plus, <- Zlt_Qlt in Q1. lia. }
  unfold getSubmap. rewrite HI.
  set (sub0 := set_frame _ _).
  assert (reg_ok sub0) as R0.
  { pose proof (new_map_reg (layers m) (r_nodup _ R)) as K. unfold sub0.
    destruct K as [K1 K2 K3 K4]. constructor; auto. }
  destruct (setGeometry_sub (si_len i) (resn m) (si_pos i) sub0 (si_size i)) as
    (sub1 & H & R1 & G1 & Z1 & E1 & E2 & E3 & E4 & E5 & E6 & E7 & E8 & E9); auto.
  rewrite H. cbn [size set_start].
  pose proof (g_start _ G) as Hs.
  assert (window_ok (size m) (start m) (si_start i) (si_size i)) as W.
  { assert (in_range (size m) (si_start i)) as Rs by (rewrite Hst; apply wrap_in_range; auto).
    assert (unwrap_index (si_start i) (size m) (start m) = tu) as U by (rewrite Hst; apply unwrap_wrap; auto).
    rewrite unwrap_index_mod in U by auto.
    unfold window_ok. split; auto. split; auto. split; auto. split; auto.
    assert (U0 := f_equal fst U). assert (U1 := f_equal snd U). cbn [fst snd] in U0, U1.
    rewrite U0, U1, Hsz. cbn [fst snd]. destruct Rb. lia. }
  pose proof (copy_window (size m) (start m) (si_start i) (si_size i)) as CW.
  destruct (buffer_regions (si_start i) (size sub1) (size m) (start m)) as [bs|] eqn:HB.
  2: { exfalso. rewrite Z1 in HB. rewrite HB in CW.
       apply (CW (mconst (fst (size m)) (snd (size m)) 0) (mconst (fst (si_size i)) (snd (si_size i)) 0)); auto.
       - apply wf_mconst; destruct (g_size _ G); lia.
       - apply wf_mconst; lia. }
  rewrite Z1 in HB. clear CW. cbn [data set_start].
  destruct (copy_layers_ok (size m) (start m) (si_start i) (si_size i) bs W HB (data m) (data sub1)) as
    (dst & C1 & C2 & C3 & C4).
  { apply R. } { intros k d Hd. apply (r_mat _ R k d Hd). }
  { intros k Hk. apply (r_same _ R) in Hk.
    assert (In k (akeys (data sub1))) as Hk1.
    { apply (r_same _ R1). rewrite E4. exact Hk. }
    apply aget_In in Hk1. destruct Hk1 as [d0 Hd0]. exists d0. split; auto. rewrite <- Z1.
    apply (r_mat _ R1 k d0 Hd0). }
  rewrite C1. cbn [rbind]. eexists. split; [reflexivity|].
  set (sub := set_data _ _).
  assert (Keys : akeys dst = akeys (data sub1)) by exact C2.
  assert (Same : forall k, In k (akeys dst) <-> In k (akeys (data m))).
  { intros k. rewrite Keys, <- (r_same _ R1), E4. apply (r_same _ R). }
  assert (G2 : geo_ok sub).
  { destruct G1 as [? ? ? ?]. constructor; auto. unfold sub; cbn. rewrite Z1. unfold in_range; cbn; lia. }
  assert (R2 : reg_ok sub).
  { constructor; cbn [sub layers data set_data set_start size].
    - apply R1.
    - rewrite Keys. apply R1.
    - intros k. rewrite Keys. apply R1.
    - intros k d Hd. assert (In k (akeys (data m))) as Hk by (apply Same; apply aget_In; eauto).
      apply aget_In in Hk. destruct Hk as [d0 Hd0]. destruct (C4 k d0 Hd0) as (d' & Hd' & V1 & V2 & V3 & _).
      rewrite Hd in Hd'. injection Hd' as <-. rewrite Z1. auto. }
  cut (forall w, in_range (size sub) w -> let j := window_cell (size m) (start m) (si_start i) w in
      in_range (size m) j /\ veq (centre sub w) (centre m j) /\ forall l, at_ sub l w = at_ m l j).
  { intros Cells. split.
    - unfold sub_ok. split; auto. split; auto.
      split; [exact E4|]. split; [exact E5|]. split; [exact E6|]. split; [exact E7|].
      split; [change (resn sub1 == resn m)%Q; rewrite E1; reflexivity|]. split; [reflexivity|].
      intros w Hw. eexists. apply Cells. exact Hw.
    - cbn [size pos resn sub set_data set_start]. auto. }
  cbn zeta.
  intros w Hw. change (size sub) with (size sub1) in Hw. rewrite Z1 in Hw.
  destruct (window_wrap (size m) (start m) (si_start i) (si_size i) w W Hw) as [Rw Ew].
  assert (unwrap_index (si_start i) (size m) (start m) = tu) as U by (rewrite Hst; apply unwrap_wrap; auto).
  rewrite U in Rw, Ew.
  assert (RW : in_range (size m) (window_cell (size m) (start m) (si_start i) w)).
  { rewrite <- Ew. apply wrap_in_range; auto. }
  split; auto. split.
  - assert (Wm : world_index m (window_cell (size m) (start m) (si_start i) w) = (fst tu + fst w, snd tu + snd w)).
    { unfold world_index. rewrite <- unwrap_index_mod by auto. rewrite <- Ew. apply unwrap_wrap; auto. }
    assert (Ws : world_index sub w = w).
    { unfold world_index. change (start sub) with (0, 0). change (size sub) with (size sub1). rewrite Z1. cbn [fst snd].
      destruct Hw. rewrite !Z.sub_0_r, !Z.mod_small by lia. now destruct w. }
    unfold centre. rewrite Wm, Ws. change (pos sub) with (pos sub1). change (resn sub) with (resn sub1).
    change (len sub) with (len sub1). rewrite E1, E2.
    destruct (g_len _ G1) as [L0 L1]; cbn [fst snd] in L0, L1. rewrite E1, Z1 in L0, L1.
    unfold veq. cbn [fst snd]. unfold centre1 in *. injz. rewrite P0, P1, Ln0, Ln1.
    split; [rewrite L0|rewrite L1]; field.
  - intros k. unfold at_. change (data sub) with dst.
    destruct (aget (data m) k) as [d|] eqn:K.
    + destruct (C4 k d K) as (d' & Hd' & _ & _ & _ & V). rewrite Hd'. rewrite V by auto. reflexivity.
    + destruct (aget dst k) as [d'|] eqn:K'; auto. exfalso.
      apply aget_None in K. apply K. apply Same. apply aget_In. eauto.
Qed.


(** Clamping to the map, one axis. *)
Lemma bound_position1_ok p L c r : (0 < r)%Q -> (r <= L)%Q -> (border_eps p < r)%Q ->
  let b := bound_position1 p L c in
  (c - L / 2 < b)%Q /\ (b <= c + L / 2)%Q /\
  ((c + L / 2 <= p)%Q -> (c + L / 2 - r < b)%Q) /\
  ((p <= c - L / 2)%Q -> (b <= c - L / 2 + r)%Q) /\
  ((c - L / 2 < p)%Q -> (p < c + L / 2)%Q -> b == p)%Q.
Proof.
  intros Hr HL He. cbn zeta. unfold bound_position1.
  set (sh := fadd (fsub p c) (fmul (1 # 2) L)).
  assert (Hsh : (sh == p - c + L / 2)%Q) by (unfold sh; exqX X; field).
  set (eps := if Qlt_bool 1 (Qabs p) then _ else _).
  assert (Heps : (eps == border_eps p)%Q).
  { unfold eps, border_eps. destruct (Qlt_bool 1 (Qabs p)) eqn:K.
    - apply Qlt_bool_iff in K. destruct (Qlt_le_dec 1 (Qabs p)); [|exfalso; lra]. exqX X. reflexivity.
    - destruct (Qlt_le_dec 1 (Qabs p)) as [C|]; [apply Qlt_bool_iff in C; congruence|].
      unfold dbl_eps10. reflexivity. }
  assert (Pe : (0 < border_eps p)%Q).
  { unfold border_eps. destruct (Qlt_le_dec 1 (Qabs p)); lra. }
  clearbody eps sh.
  assert (L / 2 + L / 2 == L)%Q as L2 by field.
  generalize dependent (L / 2)%Q. intros h Hsh L2.
  assert (Hf : forall x, (fsub (fadd x c) (fmul (1 # 2) L) == x + c - h)%Q).
  { intros x. exqX X. lra. }
  destruct (Qle_bool sh 0) eqn:K1; [apply Qle_bool_iff in K1|apply Qle_bool_false in K1].
  - rewrite Hf. rewrite Heps. repeat split; intros; lra.
  - destruct (Qle_bool L sh) eqn:K2; [apply Qle_bool_iff in K2|apply Qle_bool_false in K2].
    + rewrite Hf, (fsub_eq X). rewrite Heps. repeat split; intros; lra.
    + rewrite Hf. repeat split; intros; lra.
Qed.

(** Coverage and tightness, one axis. *)
Lemma cover1 q l c L r n tu bu pt pb : (0 < r)%Q -> (L == inject_Z n * r)%Q -> (0 <= l)%Q ->
  (pt == q + l / 2)%Q -> (pb == q - l / 2)%Q -> (border_eps pt < r)%Q -> (border_eps pb < r)%Q ->
  0 <= tu < n -> 0 <= bu < n ->
  contains1 r (centre1 L c r tu) (bound_position1 pt L c) ->
  contains1 r (centre1 L c r bu) (bound_position1 pb L c) ->
  let top := (c + L / 2 - inject_Z tu * r)%Q in
  let bot := (c + L / 2 - inject_Z (bu + 1) * r)%Q in
  (forall x, c - L / 2 < x -> x <= c + L / 2 -> q - l / 2 <= x -> x <= q + l / 2 -> bot < x <= top)%Q /\
  ((c - L / 2 < q)%Q -> (q <= c + L / 2)%Q -> (top - r < q + l / 2)%Q /\ (q - l / 2 <= bot + r)%Q).
Proof.
  intros Hr HL Hl Et Eb Ht Hb Rt Rb Ct Cb. cbn zeta.
  assert (inject_Z 1 * r <= L)%Q as L1.
  { rewrite HL. apply Qmult_le_compat_r; [|lra]. rewrite <- Zle_Qle. lia. }
  change (inject_Z 1) with 1%Q in L1.
  destruct (bound_position1_ok pt L c r Hr ltac:(lra) Ht) as (T1 & T2 & T3 & T4 & T5).
  destruct (bound_position1_ok pb L c r Hr ltac:(lra) Hb) as (B1 & B2 & B3 & B4 & B5).
  set (bt := bound_position1 pt L c) in *. set (bb := bound_position1 pb L c) in *. clearbody bt bb.
  unfold contains1, centre1 in Ct, Cb.
  assert (L == L / 2 + L / 2)%Q as HL2 by field. set (h := (L / 2)%Q) in *.
  assert (l == l / 2 + l / 2)%Q as Hl2 by field. set (g := (l / 2)%Q) in *.
  assert (r == r / 2 + r / 2)%Q as Hr2 by field. set (e := (r / 2)%Q) in *.
  clearbody h g e.
  assert (M1 : ((inject_Z tu + (1 # 2)) * r == inject_Z tu * r + e)%Q) by lra.
  assert (M2 : ((inject_Z bu + (1 # 2)) * r == inject_Z bu * r + e)%Q) by lra.
  assert (M3 : (inject_Z (bu + 1) * r == inject_Z bu * r + r)%Q) by (rewrite inject_Z_plus; change (inject_Z 1) with 1%Q; lra).
  rewrite M1 in Ct. rewrite M2 in Cb. set (v := (inject_Z (bu + 1) * r)%Q) in *. clearbody v.
  assert (Lt : forall a b : Z, (inject_Z a * r < inject_Z b * r)%Q -> a < b).
  { intros a b H. apply Qmult_lt_r in H; auto. now rewrite <- Zlt_Qlt in H. }
  assert (Z0 : forall a : Z, 0 <= a -> (inject_Z a * r < r)%Q -> (inject_Z a * r == 0)%Q).
  { intros a Ha H. assert (a < 1). { apply Lt. change (inject_Z 1) with 1%Q. lra. }
    replace a with 0 by lia. ring. }
  assert (ZN : (inject_Z n * r - r - r < inject_Z bu * r)%Q -> (inject_Z bu * r == inject_Z n * r - r)%Q).
  { intros H. assert (n - 2 < bu). { apply Lt. unfold Z.sub. rewrite inject_Z_plus. change (inject_Z (-(2))) with (-(2))%Q. lra. }
    replace bu with (n + -(1)) by lia. rewrite inject_Z_plus. change (inject_Z (-(1))) with (-(1))%Q. ring. }
  assert (Pu : (0 <= inject_Z tu * r)%Q).
  { apply Qmult_le_0_compat; [|lra]. change 0%Q with (inject_Z 0). rewrite <- Zle_Qle. lia. }
  assert (Pb : (0 <= inject_Z bu * r)%Q).
  { apply Qmult_le_0_compat; [|lra]. change 0%Q with (inject_Z 0). rewrite <- Zle_Qle. lia. }
  specialize (Z0 tu) as Z1. specialize (Z0 bu) as Z2. specialize (Z1 ltac:(lia)). specialize (Z2 ltac:(lia)).
  clear Z0 Lt M1 M2.
  set (u := (inject_Z tu * r)%Q) in *. set (w := (inject_Z bu * r)%Q) in *. set (N := (inject_Z n * r)%Q) in *.
  clearbody u w N.
  split.
  - intros x X1 X2 X3 X4. split.
    + destruct (Qlt_le_dec (c - h) pb) as [A|A].
      * destruct (Qlt_le_dec pb (c + h)) as [A'|A'].
        { specialize (B5 A A'). lra. }
        { lra. }
      * specialize (B4 A). assert (w == N - r)%Q by (apply ZN; lra). lra.
    + destruct (Qlt_le_dec pt (c + h)) as [A|A].
      * assert (A' : (c - h < pt)%Q) by lra. specialize (T5 A' A). lra.
      * specialize (T3 A). assert (u == 0)%Q by (apply Z1; lra). lra.
  - intros I1 I2. split.
    + destruct (Qlt_le_dec pt (c + h)) as [A|A].
      * assert (A' : (c - h < pt)%Q) by lra. specialize (T5 A' A). lra.
      * lra.
    + destruct (Qlt_le_dec (c - h) pb) as [A|A].
      * destruct (Qlt_le_dec pb (c + h)) as [A'|A'].
        { specialize (B5 A A'). lra. }
        { specialize (B3 A'). assert (w == 0)%Q by (apply Z2; lra). lra. }
      * lra.
Qed.

(** Corners of a successful submap. *)
Lemma getSubmap_corners m q l i sub : geo_ok m ->
  submap_information q l (len m) (pos m) (resn m) (size m) (start m) = Some i ->
  geo_ok sub -> size sub = si_size i -> pos sub = si_pos i -> resn sub = resn m ->
  exists tu bu, in_range (size m) tu /\ in_range (size m) bu /\
    (fst (upper sub) == fst (upper m) - inject_Z (fst tu) * resn m)%Q /\
    (snd (upper sub) == snd (upper m) - inject_Z (snd tu) * resn m)%Q /\
    (fst (lower sub) == fst (upper m) - inject_Z (fst bu + 1) * resn m)%Q /\
    (snd (lower sub) == snd (upper m) - inject_Z (snd bu + 1) * resn m)%Q /\
    (fst (lower sub) < fst q <= fst (upper sub))%Q /\ (snd (lower sub) < snd q <= snd (upper sub))%Q /\
    contains (resn m) (centre m (wrap_index tu (size m) (start m))) 
      (bound_position (fadd (fst q) (fmul (1#2) (fst l)), fadd (snd q) (fmul (1#2) (snd l))) (len m) (pos m)) /\
    contains (resn m) (centre m (wrap_index bu (size m) (start m))) 
      (bound_position (fsub (fst q) (fmul (1#2) (fst l)), fsub (snd q) (fmul (1#2) (snd l))) (len m) (pos m)).
Proof.
  intros G HI Gs Ez Ep Er.
  destruct (submap_information_ok m q l i G HI) as (tu & bu & Rt & Rb & Hst & Hsz & Ln0 & Ln1 & P0 & P1 & Q0 & Q1 & C1 & C2).
  exists tu, bu. split; auto. split; auto.
  destruct (g_len _ Gs) as [L0 L1]; cbn [fst snd] in L0, L1. rewrite Er, Ez in L0, L1.
  rewrite <- Ln0 in L0. rewrite <- Ln1 in L1.
  unfold upper, lower. cbn [fst snd]. rewrite Ep, L0, L1, P0, P1.
  unfold centre1. rewrite Ln0, Ln1, Hsz. cbn [fst snd].
  assert (A0 : forall c L t r y : Q, (c + L / 2 - (t + (1 # 2)) * r + r / 2 - y / 2 + y / 2 == c + L / 2 - t * r)%Q) by (intros; field).
  assert (A1 : forall (c L : Q) (t b : Z) (r : Q), (c + L / 2 - (inject_Z t + (1 # 2)) * r + r / 2 
     - inject_Z (b - t + 1) * r / 2 - inject_Z (b - t + 1) * r / 2 == c + L / 2 - inject_Z (b + 1) * r)%Q).
  { intros. unfold Z.sub. rewrite !inject_Z_plus, inject_Z_opp. field. }
  rewrite !A0, !A1. split; [reflexivity|]. split; [reflexivity|]. split; [reflexivity|]. split; [reflexivity|].
  split; auto.
Qed.

Lemma inside_corners m p : inside m p <->
  ((fst (lower m) < fst p <= fst (upper m))%Q /\ (snd (lower m) < snd p <= snd (upper m))%Q).
Proof. unfold inside, lower, upper. cbn [fst snd]. tauto. Qed.

Lemma lower_upper m : geo_ok m ->
  (fst (lower m) == fst (upper m) - inject_Z (fst (size m)) * resn m)%Q /\
  (snd (lower m) == snd (upper m) - inject_Z (snd (size m)) * resn m)%Q.
Proof.
  intros G. destruct (g_len _ G) as [A B]. cbn [fst snd] in A, B. unfold lower, upper; cbn [fst snd].
  rewrite <- A, <- B. split; field.
Qed.

(** The submap lies within the parent. *)
Lemma sub_within m sub tu bu : geo_ok m -> in_range (size m) tu -> in_range (size m) bu ->
    (fst (upper sub) == fst (upper m) - inject_Z (fst tu) * resn m)%Q ->
    (snd (upper sub) == snd (upper m) - inject_Z (snd tu) * resn m)%Q ->
    (fst (lower sub) == fst (upper m) - inject_Z (fst bu + 1) * resn m)%Q ->
    (snd (lower sub) == snd (upper m) - inject_Z (snd bu + 1) * resn m)%Q ->
    forall p, inside sub p -> inside m p.
Proof.
  intros G [T0 T1] [B0 B1] U0 U1 D0 D1 p. rewrite !inside_corners.
  destruct (lower_upper m G) as [E0 E1]. rewrite U0, U1, D0, D1, E0, E1.
  pose proof (g_res _ G) as Hr.
  assert (Le : forall a b : Z, a <= b -> (inject_Z a * resn m <= inject_Z b * resn m)%Q).
  { intros a b H. apply Qmult_le_compat_r; [now rewrite <- Zle_Qle|lra]. }
  pose proof (Le 0 (fst tu) ltac:(lia)). pose proof (Le 0 (snd tu) ltac:(lia)).
  pose proof (Le (fst bu + 1) (fst (size m)) ltac:(lia)). pose proof (Le (snd bu + 1) (snd (size m)) ltac:(lia)).
  change (inject_Z 0) with 0%Q in *. intros [A B]. split; split; lra.
Qed.

Lemma getSubmap_total m q l : geo_ok m -> reg_ok m ->
  (exists i sub, submap_information q l (len m) (pos m) (resn m) (size m) (start m) = Some i /\
    getSubmap m q l = Ok (true, sub) /\ sub_ok m sub /\ size sub = si_size i /\ pos sub = si_pos i /\ resn sub = resn m) \/
  (submap_information q l (len m) (pos m) (resn m) (size m) (start m) = None /\
    getSubmap m q l = Ok (false, new_map (layers m))).
Proof.
  intros G R. destruct (submap_information q l (len m) (pos m) (resn m) (size m) (start m)) as [i|] eqn:HI.
  - left. destruct (getSubmap_some m q l i G R HI) as (sub & A & B & C & D & F & _). exists i, sub. auto 10.
  - right. split; auto. unfold getSubmap. rewrite HI. reflexivity.
Qed.

Lemma at_value a b i j : (forall n, at_ a n i = at_ b n j) -> forall n v, value_at a n i v <-> value_at b n j v.
Proof.
  intros K3 n v. specialize (K3 n). unfold at_ in K3. unfold value_at.
  destruct (aget (data a) n) as [d|] eqn:D1, (aget (data b) n) as [d'|] eqn:D2.
  - split; intros (x & X1 & X2); injection X1 as <-.
    + exists d'. split; auto. rewrite X2 in K3. destruct (mget d' (fst j) (snd j)); cbn in K3; congruence.
    + exists d. split; auto. rewrite X2 in K3. destruct (mget d (fst i) (snd i)); cbn in K3; congruence.
  - exfalso. destruct (mget d (fst i) (snd i)); discriminate.
  - exfalso. destruct (mget d' (fst j) (snd j)); discriminate.
  - split; intros (x & X1 & X2); congruence.
Qed.

(** C18. *)
Lemma getSubmap_final m q l sub : geo_ok m -> reg_ok m -> getSubmap m q l = Ok (true, sub) ->
  geo_ok sub /\ reg_ok sub /\
  layers sub = layers m /\ basic sub = basic m /\ frame sub = frame m /\ stamp sub = stamp m /\
  resn sub = resn m /\ start sub = (0, 0) /\
  (forall i, in_range (size sub) i -> exists j, in_range (size m) j /\ veq (centre sub i) (centre m j) /\
     forall n v, value_at sub n i v <-> value_at m n j v) /\
  (forall p, inside sub p -> inside m p) /\
  (forall n p v, inside sub p -> (world_value sub n p v <-> world_value m n p v)).
Proof.
  intros G R H. destruct (getSubmap_total m q l G R) as [(i & sub' & HI & A & S & Ez & Ep & Er)|[_ A]];
    rewrite H in A; [|discriminate]. injection A as <-.
  destruct S as (Gs & Rs & S1 & S2 & S3 & S4 & _ & S6 & S7).
  assert (V : forall i, in_range (size sub) i -> exists j, in_range (size m) j /\ veq (centre sub i) (centre m j) /\
     forall n v, value_at sub n i v <-> value_at m n j v).
  { intros j Hj. destruct (S7 j Hj) as (k & K1 & K2 & K3). exists k. split; auto. split; auto.
    intros n v. apply at_value; auto. }
  destruct (getSubmap_corners m q l i sub) as (tu & bu & Rt & Rb & U0 & U1 & D0 & D1 & _); auto.
  pose proof (sub_within m sub tu bu G Rt Rb U0 U1 D0 D1) as W.
  do 8 (split; [assumption|]). split; [exact V|]. split; [exact W|].
  intros n p v Hp. 
  destruct (getIndex_contains X sub p Gs Hp) as [Ri Ci]. set (ix := snd (getIndex sub p)) in *.
  destruct (V ix Ri) as (j & Rj & Cj & Vj).
  assert (Cm : contains (resn m) (centre m j) p).
  { rewrite Er in Ci. destruct Ci as [C0 C1], Cj as [E0 E1]. unfold contains, contains1 in *.
    rewrite <- E0, <- E1. split; auto. }
  split; intros (k & d & Rk & Dk & Vk & Ck).
  - assert (k = ix) as -> by (eapply covering_unique; eauto).
    destruct (proj1 (Vj n v)) as (d' & A & B). { exists d; auto. } exists j, d'. auto.
  - assert (k = j) as -> by exact (covering_unique m k j p G Rk Rj Ck Cm).
    destruct (proj2 (Vj n v)) as (d' & A & B). { exists d; auto. } exists ix, d'. auto.
Qed.

(** C19, failure side. *)
Lemma getSubmap_result_final m q l : geo_ok m -> reg_ok m ->
  (exists sub, getSubmap m q l = Ok (true, sub) /\ inside sub q /\ inside m q) \/
  getSubmap m q l = Ok (false, new_map (layers m)).
Proof.
  intros G R. destruct (getSubmap_total m q l G R) as [(i & sub & HI & A & S & Ez & Ep & Er)|[_ A]]; auto.
  left. exists sub. split; auto. destruct S as (Gs & _).
  destruct (getSubmap_corners m q l i sub) as (tu & bu & Rt & Rb & U0 & U1 & D0 & D1 & Q0 & Q1 & _); auto.
  assert (inside sub q) by (apply inside_corners; auto). split; auto.
  eapply (sub_within m sub tu bu); eauto.
Qed.

Lemma world_wrap m t : geo_ok m -> in_range (size m) t -> world_index m (wrap_index t (size m) (start m)) = t.
Proof.
  intros G H. unfold world_index. pose proof (g_start _ G). 
  rewrite <- unwrap_index_mod; auto. { apply unwrap_wrap; auto. } { apply wrap_in_range; auto. }
Qed.

(** C19, success side. *)
Lemma getSubmap_covers_final m q l : geo_ok m -> reg_ok m -> inside m q ->
  (0 <= fst l)%Q -> (0 <= snd l)%Q ->
  (border_eps (fst q + fst l / 2) < resn m)%Q -> (border_eps (fst q - fst l / 2) < resn m)%Q ->
  (border_eps (snd q + snd l / 2) < resn m)%Q -> (border_eps (snd q - snd l / 2) < resn m)%Q ->
  exists sub, getSubmap m q l = Ok (true, sub) /\
    (forall p, inside m p -> (fst q - fst l / 2 <= fst p <= fst q + fst l / 2)%Q ->
       (snd q - snd l / 2 <= snd p <= snd q + snd l / 2)%Q -> inside sub p) /\
    (fst (upper sub) - resn m < fst q + fst l / 2)%Q /\ (fst q - fst l / 2 <= fst (lower sub) + resn m)%Q /\
    (snd (upper sub) - resn m < snd q + snd l / 2)%Q /\ (snd q - snd l / 2 <= snd (lower sub) + resn m)%Q.
Proof.
  intros G R Hq L0 L1 E0 E1 E2 E3. pose proof (g_res _ G) as Hr.
  set (pt := (fadd (fst q) (fmul (1#2) (fst l)), fadd (snd q) (fmul (1#2) (snd l)))).
  set (pb := (fsub (fst q) (fmul (1#2) (fst l)), fsub (snd q) (fmul (1#2) (snd l)))).
  assert (T0 : (fst pt == fst q + fst l / 2)%Q) by (cbn [fst pt]; exqX X; field).
  assert (T1 : (snd pt == snd q + snd l / 2)%Q) by (cbn [snd pt]; exqX X; field).
  assert (B0 : (fst pb == fst q - fst l / 2)%Q) by (cbn [fst pb]; exqX X; field).
  assert (B1 : (snd pb == snd q - snd l / 2)%Q) by (cbn [snd pb]; exqX X; field).
  assert (EB : forall x y, (x == y -> border_eps x == border_eps y)%Q).
  { intros x y Exy. unfold border_eps. assert (Qabs x == Qabs y)%Q as Ea by now rewrite Exy.
    destruct (Qlt_le_dec 1 (Qabs x)), (Qlt_le_dec 1 (Qabs y)); try (exfalso; lra); [now rewrite Ea|reflexivity]. }
  rewrite <- (EB _ _ T0) in E0. rewrite <- (EB _ _ B0) in E1. rewrite <- (EB _ _ T1) in E2. rewrite <- (EB _ _ B1) in E3.
  destruct (g_len _ G) as [Ln0 Ln1]. cbn [fst snd] in Ln0, Ln1. destruct (g_size _ G) as [Z0 Z1].
  assert (One : forall n L, 0 < n -> (L == inject_Z n * resn m)%Q -> (resn m <= L)%Q).
  { intros n L Hn HL. rewrite HL. rewrite <- (Qmult_1_l (resn m)) at 1. apply Qmult_le_compat_r; [|lra].
    change 1%Q with (inject_Z 1). rewrite <- Zle_Qle. lia. }
  assert (It : inside m (bound_position pt (len m) (pos m))).
  { destruct (bound_position1_ok (fst pt) (fst (len m)) (fst (pos m)) (resn m)) as (A1 & A2 & _); eauto.
    destruct (bound_position1_ok (snd pt) (snd (len m)) (snd (pos m)) (resn m)) as (A3 & A4 & _); eauto.
    unfold inside, bound_position; cbn [fst snd]; auto. }
  assert (Ib : inside m (bound_position pb (len m) (pos m))).
  { destruct (bound_position1_ok (fst pb) (fst (len m)) (fst (pos m)) (resn m)) as (A1 & A2 & _); eauto.
    destruct (bound_position1_ok (snd pb) (snd (len m)) (snd (pos m)) (resn m)) as (A3 & A4 & _); eauto.
    unfold inside, bound_position; cbn [fst snd]; auto. }
  assert (Cover : forall tu bu, in_range (size m) tu -> in_range (size m) bu ->
     contains (resn m) (centre m (wrap_index tu (size m) (start m))) (bound_position pt (len m) (pos m)) ->
     contains (resn m) (centre m (wrap_index bu (size m) (start m))) (bound_position pb (len m) (pos m)) ->
     (forall p, inside m p -> (fst q - fst l / 2 <= fst p <= fst q + fst l / 2)%Q ->
       (snd q - snd l / 2 <= snd p <= snd q + snd l / 2)%Q ->
       (fst (upper m) - inject_Z (fst bu + 1) * resn m < fst p <= fst (upper m) - inject_Z (fst tu) * resn m)%Q /\
       (snd (upper m) - inject_Z (snd bu + 1) * resn m < snd p <= snd (upper m) - inject_Z (snd tu) * resn m)%Q) /\
     (fst (upper m) - inject_Z (fst tu) * resn m - resn m < fst q + fst l / 2)%Q /\ 
     (fst q - fst l / 2 <= fst (upper m) - inject_Z (fst bu + 1) * resn m + resn m)%Q /\
     (snd (upper m) - inject_Z (snd tu) * resn m - resn m < snd q + snd l / 2)%Q /\ 
     (snd q - snd l / 2 <= snd (upper m) - inject_Z (snd bu + 1) * resn m + resn m)%Q).
  { intros tu bu Rt Rb C1 C2. unfold centre in C1, C2. rewrite !world_wrap in C1, C2 by auto.
    destruct C1 as [C10 C11], C2 as [C20 C21]. unfold bound_position in C10, C11, C20, C21. cbn [fst snd] in C10, C11, C20, C21.
    destruct Rt as [Rt0 Rt1], Rb as [Rb0 Rb1]. destruct Hq as (Q1 & Q2 & Q3 & Q4).
    destruct (cover1 (fst q) (fst l) (fst (pos m)) (fst (len m)) (resn m) (fst (size m)) (fst tu) (fst bu) (fst pt) (fst pb)) as [V1 V2]; auto.
    destruct (cover1 (snd q) (snd l) (snd (pos m)) (snd (len m)) (resn m) (snd (size m)) (snd tu) (snd bu) (snd pt) (snd pb)) as [V3 V4]; auto.
    split.
    - intros p (P1 & P2 & P3 & P4) [] []. split; [apply V1|apply V3]; auto.
    - destruct (V2 Q1 Q2), (V4 Q3 Q4). auto. }
  destruct (getIndex_contains X m _ G It) as [R1 C1]. destruct (getIndex_contains X m _ G Ib) as [R2 C2].
  assert (HI : submap_information q l (len m) (pos m) (resn m) (size m) (start m) <> None).
  { unfold submap_information. fold pt pb.
    pose proof (g_start _ G) as Hs.
    assert (K1 : fst (getIndex m (bound_position pt (len m) (pos m))) = true) by (rewrite fst_getIndex; now apply (isInside_iff X)).
    assert (K2 : fst (getIndex m (bound_position pb (len m) (pos m))) = true) by (rewrite fst_getIndex; now apply (isInside_iff X)).
    unfold getIndex in K1, K2, R1, R2, C1, C2.
    destruct (index_from_position (bound_position pt (len m) (pos m)) _ _ _ _ _) as [ok1 tli].
    destruct (index_from_position (bound_position pb (len m) (pos m)) _ _ _ _ _) as [ok2 bri].
    cbn [fst snd] in K1, K2, R1, R2, C1, C2. subst ok1 ok2. cbn [negb].
    change (position_from_index tli (len m) (pos m) (resn m) (size m) (start m)) with (getPosition m tli).
    destruct (getPosition_centre X m tli G R1) as (ctr & Hc & Ec). rewrite Hc.
    set (tu := unwrap_index tli (size m) (start m)). set (bu := unwrap_index bri (size m) (start m)).
    destruct (Cover tu bu) as [Cv _]; [apply unwrap_in_range; auto..| | |].
    { unfold tu. rewrite wrap_unwrap; auto. } { unfold bu. rewrite wrap_unwrap; auto. }
    destruct (Cv q Hq) as [V0 V1].
    { assert (0 <= fst l / 2)%Q by (apply Qle_shift_div_l; lra). lra. }
    { assert (0 <= snd l / 2)%Q by (apply Qle_shift_div_l; lra). lra. }
    cbn [fst snd].
    assert (Etu : tu = world_index m tli) by (unfold tu; rewrite unwrap_index_mod; auto).
    destruct Ec as [Ec0 Ec1]. unfold centre in Ec0, Ec1. rewrite <- Etu in Ec0, Ec1. cbn [fst snd] in Ec0, Ec1.
    assert (W : forall (L c x y : Q) (t b : Z), (x == centre1 L c (resn m) t)%Q ->
       (c + L / 2 - inject_Z (b + 1) * resn m < y <= c + L / 2 - inject_Z t * resn m)%Q ->
       within1 y (fmul (inject_Z (b - t + 1)) (resn m))
         (fsub (fadd x (fmul (1 # 2) (resn m))) (fmul (1 # 2) (fmul (inject_Z (b - t + 1)) (resn m)))) = true).
    { intros L c x y t b Hx [Y1 Y2]. apply (within1_iff X).
      assert (S1 : (fmul (inject_Z (b - t + 1)) (resn m) == inject_Z (b + 1) * resn m - inject_Z t * resn m)%Q).
      { rewrite (fmul_eq X). replace (b - t + 1) with (b + 1 + - t) by lia. rewrite (inject_Z_plus (b + 1)), inject_Z_opp. ring. }
      set (s := fmul (inject_Z (b - t + 1)) (resn m)) in *. clearbody s.
      assert (S2 : (fsub (fadd x (fmul (1 # 2) (resn m))) (fmul (1 # 2) s) == x + resn m / 2 - s / 2)%Q).
      { exqX X. field. }
      rewrite S2, Hx. unfold centre1.
      assert (S3 : (c + L / 2 - (inject_Z t + (1 # 2)) * resn m + resn m / 2 == c + L / 2 - inject_Z t * resn m)%Q) by field.
      rewrite S3. assert (s == s / 2 + s / 2)%Q by field. lra. }
    unfold index_from_position, position_within_map. cbn [fst snd].
    rewrite (W (fst (len m)) (fst (pos m))), (W (snd (len m)) (snd (pos m))) by auto. cbn [andb]. discriminate. }
  destruct (getSubmap_total m q l G R) as [(i & sub & Hi & A & S & Ez & Ep & Er)|[Hi _]]; [|contradiction].
  exists sub. split; auto. destruct S as (Gs & _).
  destruct (getSubmap_corners m q l i sub) as (tu & bu & Rt & Rb & U0 & U1 & D0 & D1 & Q0 & Q1 & Ct & Cb); auto.
  destruct (Cover tu bu Rt Rb Ct Cb) as (V & V1 & V2 & V3 & V4).
  rewrite U0, U1, D0, D1. split; auto.
  intros p Hp P0 P1. apply inside_corners. rewrite U0, U1, D0, D1. apply V; auto.
Qed.

(** SubmapGeometry and SubmapIterator agree with getSubmap. *)
Lemma window_list_snd n s tl sn : window_ok n s tl sn -> NoDup (map snd (window_list n s tl sn)).
Proof.
  intros W. destruct (window_list_spec n s tl sn W) as (ND & B & _). set (vs := window_list n s tl sn) in *. clearbody vs.
  apply (NoDup_map_inv (window_cell n s tl)). rewrite map_map. erewrite map_ext_in; [exact ND|].
  intros [j w] K. apply B in K as [_ ->]. reflexivity.
Qed.

Lemma submap_geometry_final m q l i : geo_ok m -> reg_ok m ->
  submap_geometry m q l = Some i ->
  exists sub vs, getSubmap m q l = Ok (true, sub) /\
    size sub = si_size i /\ pos sub = si_pos i /\ veq (len sub) (si_len i) /\
    in_range (size sub) (si_req i) /\ contains (resn sub) (centre sub (si_req i)) q /\
    sub_visits (size m) (start m) (si_start i) (si_size i) = Ok vs /\
    NoDup (map snd vs) /\ NoDup (map fst vs) /\ (forall w, In w (map snd vs) <-> in_range (size sub) w) /\
    (forall j w, In (j, w) vs -> in_range (size m) j /\ veq (centre sub w) (centre m j) /\
       forall n v, value_at sub n w v <-> value_at m n j v).
Proof.
  intros G R HI. destruct (getSubmap_some m q l i G R HI) as (sub & A & S & Ez & Ep & Er & W & Cells).
  destruct (submap_information_ok m q l i G HI) as (tu & bu & _ & _ & _ & _ & Ln0 & Ln1 & _).
  assert (Gs : geo_ok sub) by apply S.
  assert (Hs0 : start sub = (0, 0)) by apply S.
  destruct (getSubmap_corners m q l i sub) as (_ & _ & _ & _ & _ & _ & _ & _ & Q0 & Q1 & _); auto.
  assert (Iq : inside sub q) by (apply inside_corners; auto).
  assert (El : veq (len sub) (si_len i)).
  { destruct (g_len _ Gs) as [E0 E1]. cbn [fst snd] in E0, E1. unfold veq. rewrite E0, E1, Ln0, Ln1, Er, Ez.
    split; reflexivity. }
  destruct (getIndex_contains X sub q Gs Iq) as [Ri Ci].
  assert (Hreq : si_req i = snd (getIndex sub q)).
  { unfold submap_geometry, submap_information in HI.
    destruct (index_from_position _ (len m) (pos m) _ _ _) as [ok1 tli]. destruct ok1; [|discriminate]. cbn [negb] in HI.
    destruct (index_from_position _ (len m) (pos m) _ _ _) as [ok2 bri]. destruct ok2; [|discriminate]. cbn [negb] in HI.
    destruct (position_from_index _ _ _ _ _ _) as [ctr|]; [|discriminate].
    destruct (index_from_position q _ _ _ _ _) as [ok3 rq] eqn:K3. destruct ok3; [|discriminate].
    injection HI as <-. cbn [si_req si_size si_pos si_len] in *.
    unfold getIndex. rewrite Er, Ez, Ep, Hs0.
    unfold index_from_position in K3 |- *. cbn [snd].
    assert (RL : forall p L L' c r, (L == L')%Q -> raw_index1 p L c r = raw_index1 p L' c r).
    { intros p L L' c r HL. unfold raw_index1. apply Qtrunc_comp. exqX X. rewrite HL. reflexivity. }
    destruct El as [El0 El1]. rewrite (RL _ _ _ _ _ El0), (RL _ _ _ _ _ El1). cbn [fst snd].
    assert (K4 := f_equal snd K3). cbn [snd fst] in K4. rewrite <- K4. reflexivity. }
  exists sub, (window_list (size m) (start m) (si_start i) (si_size i)).
  destruct (window_list_spec _ _ _ _ W) as (ND & B & _).
  split; auto. split; auto. split; auto. split; auto. rewrite Hreq. split; auto. split; auto.
  split; [now apply sub_visits_ok|]. split; [now apply window_list_snd|]. split; [exact ND|]. rewrite Ez in *. split.
  - intros w. rewrite in_map_iff. split.
    + intros ((j & w') & <- & K). apply B in K. apply K.
    + intros K. eexists (_, w). split; [reflexivity|]. apply B. auto.
  - intros j w K. apply B in K. destruct K as [K ->]. 
    destruct (Cells w K) as (C1 & C2 & C3). split; auto. split; auto.
    intros n v. apply at_value; auto.
Qed.

End Sub.
