(** Circle, ellipse and polygon iterators. *)
From Coq Require Import ZArith QArith Qround Qabs Qreduction Qfield String List Bool Lia Lqa ZifyBool.
From Verif Require Import Base Mat GridMapMath GridIter CostMap Iterators BaseLemmas GeoLemmas Spec IterProofs SubmapProofs.
Import ListNotations.
Open Scope Z_scope.

(* ------------------------------------------------------------------ *)
(** ** Filtering *)

Inductive trace : sub_iter -> list idx -> Prop :=
| trace_nil it : sb_past it = true -> trace it []
| trace_cons it l : sb_past it = false -> trace (sub_iter_next it) l -> trace it (sb_index it :: l).

Lemma run_trace {A} (cur : sub_iter -> idx * A) (fuel : nat) : (forall it, fst (cur it) = sb_index it) ->
  forall it vs, run sb_past cur sub_iter_next fuel it = Ok vs -> trace it (map fst vs) /\ (List.length vs < fuel)%nat.
Proof.
  intros C. induction fuel as [|f IH]; intros it vs H; [discriminate|]. cbn [run] in H.
  destruct (sb_past it) eqn:P.
  - injection H as <-. split; [now constructor|cbn; lia].
  - destruct (run sb_past cur sub_iter_next f (sub_iter_next it)) eqn:R; try discriminate.
    cbn in H. injection H as <-. apply IH in R as [R1 R2]. cbn [map List.length]. rewrite C. split; [now constructor|lia].
Qed.

Lemma next_ssize it : sb_ssize (sub_iter_next it) = sb_ssize it.
Proof. unfold sub_iter_next. destruct (increment_submap _ _ _ _ _ _) as [[? ?] ?]. reflexivity. Qed.

Section Filt.
Context (ins : idx -> res bool) (f : idx -> bool).

Lemma seek_ok fuel : forall it l, trace it l -> (List.length l < fuel)%nat -> (forall i, In i l -> ins i = Ok (f i)) ->
  exists it' l', seek ins fuel it = Ok it' /\ trace it' l' /\ filter f l = filter f l' /\
    (List.length l' <= List.length l)%nat /\ (forall i, In i l' -> In i l) /\ sb_ssize it' = sb_ssize it /\
    (forall x t, l' = x :: t -> f x = true).
Proof.
  induction fuel as [|n IH]; intros it l T L H; [lia|]. cbn [seek]. destruct T as [it P|it l P T]; rewrite P.
  - exists it, []. split; auto. split; [now constructor|]. repeat split; auto. discriminate.
  - rewrite H by now left. cbn [rbind]. destruct (f (sb_index it)) eqn:F.
    + exists it, (sb_index it :: l). split; auto. split; [now constructor|]. repeat split; auto.
      intros x t K. injection K as <- _. exact F.
    + cbn [List.length] in L. destruct (IH _ _ T) as (it' & l' & A & B & C & D & G & S & K); [lia|intros i Hi; apply H; now right|].
      exists it', l'. split; auto. split; auto. cbn [filter]. rewrite F. cbn [List.length].
      split; auto. split; [lia|]. split; [intros i Hi; right; auto|]. split; auto. now rewrite S, next_ssize.
Qed.

Lemma filt_run_ok sz fuel : forall it l, trace it l -> sb_ssize it = sz -> (List.length l < fuel)%nat ->
  (List.length l < grid_fuel sz)%nat ->
  (forall i, In i l -> ins i = Ok (f i)) -> (forall x t, l = x :: t -> f x = true) ->
  runM sb_past (fun it => Ok (sb_index it)) (filt_next ins) fuel it = Ok (filter f l).
Proof.
  induction fuel as [|n IH]; intros it l T S L1 L2 H F; [lia|]. cbn [runM]. destruct T as [it P|it l P T]; rewrite P.
  - reflexivity.
  - cbn [rbind]. unfold filt_next at 1. cbn [List.length] in *.
    assert (Hd : f (sb_index it) = true) by eauto. cbn [filter]. rewrite Hd.
    destruct (sb_past (sub_iter_next it)) eqn:P'.
    + cbn [rbind]. inversion T; subst; [|congruence]. rewrite (IH _ []); cbn; auto; try lia; try tauto; try discriminate. now rewrite next_ssize.
    + rewrite S. destruct (seek_ok (grid_fuel sz) _ _ T) as (it' & l' & A & B & C & D & G & S' & K); [lia|intros i Hi; apply H; now right|].
      rewrite A. cbn [rbind]. rewrite (IH it' l'); auto; try lia.
      * cbn [rbind]. now rewrite C.
      * rewrite S', next_ssize. exact S.
      * intros i Hi. apply H. right. auto.
Qed.

Lemma filt_trace n s tl sn l : trace (sub_iter_new n s tl sn) l -> (List.length l < grid_fuel sn)%nat ->
  (forall i, In i l -> ins i = Ok (f i)) -> filt_visits ins n s tl sn = Ok (filter f l).
Proof.
  intros T L H. unfold filt_visits, filt_new. inversion T as [it P E1|it l' P T' E1 E2]; subst; [discriminate P|].
  rewrite H by now left. cbn [rbind]. destruct (f (sb_index (sub_iter_new n s tl sn))) eqn:F; cbn [rbind].
  - apply (filt_run_ok sn); auto. intros x t K. inversion K; subst. exact F.
  - unfold filt_next at 1. change (sb_ssize (sub_iter_new n s tl sn)) with sn.
    cbn [filter]. rewrite F. cbn [List.length] in L. destruct (sb_past (sub_iter_next (sub_iter_new n s tl sn))) eqn:P'.
    + cbn [rbind]. inversion T'; subst; [|congruence]. apply (filt_run_ok sn) with (l := []); auto; cbn; try lia; try tauto; try discriminate. now rewrite next_ssize.
    + destruct (seek_ok (grid_fuel sn) _ _ T') as (it' & l'' & A & B & C & D & G & S' & K); [lia|intros i Hi; apply H; now right|].
      rewrite A. cbn [rbind]. rewrite C. apply (filt_run_ok sn); auto; try lia.
      * now rewrite S', next_ssize.
      * intros i Hi. apply H. right. auto.
Qed.

Lemma filt_window n s tl sn : window_ok n s tl sn -> (forall i, in_range n i -> ins i = Ok (f i)) ->
  filt_visits ins n s tl sn = Ok (filter f (map fst (window_list n s tl sn))).
Proof.
  intros W H. pose proof (sub_visits_ok n s tl sn W) as V. unfold sub_visits in V.
  destruct (run_trace (fun it => (sb_index it, sb_sindex it)) (grid_fuel sn) (fun _ => eq_refl) _ _ V) as [T L].
  apply filt_trace; auto. { now rewrite map_length. }
  intros i Hi. apply H. apply in_map_iff in Hi as ((j & w) & <- & Hw). cbn [fst].
  apply (window_list_spec n s tl sn W) in Hw as [Hw ->]. destruct W as (Hs & _).
  unfold window_cell, in_range in *. cbn [fst snd]. split; apply Z.mod_pos_bound; lia.
Qed.

(** A window with a non-positive side: only its first cell. *)
Lemma filt_degenerate n s tl sn : (fst sn <= 0 \/ snd sn <= 0) -> in_range n tl ->
  (forall i, in_range n i -> ins i = Ok (f i)) -> filt_visits ins n s tl sn = Ok (filter f [tl]).
Proof.
  intros D R H. apply filt_trace.
  - change tl with (sb_index (sub_iter_new n s tl sn)) at 2. constructor; [reflexivity|]. constructor.
    unfold sub_iter_next, increment_submap, sub_iter_new. cbn [sb_sindex sb_index sb_sstart sb_ssize sb_size sb_start fst snd].
    destruct (0 + 1 <? snd sn) eqn:K.
    + assert (index_in_range (0, 0 + 1) sn = false) as -> by (unfold index_in_range; cbn [fst snd]; lia). reflexivity.
    + assert (index_in_range (0 + 1, 0) sn = false) as -> by (unfold index_in_range; cbn [fst snd]; lia). reflexivity.
  - cbn [List.length]. unfold grid_fuel. lia.
  - intros i [<-|[]]. now apply H.
Qed.
End Filt.

(** World indices of a window. *)
Lemma window_list_world m tl sn i : geo_ok m -> window_ok (size m) (start m) tl sn ->
  (In i (map fst (window_list (size m) (start m) tl sn)) <->
   in_range (size m) i /\
   fst (world_index m tl) <= fst (world_index m i) < fst (world_index m tl) + fst sn /\
   snd (world_index m tl) <= snd (world_index m i) < snd (world_index m tl) + snd sn).
Proof.
  intros G W. destruct (window_list_spec _ _ _ _ W) as (_ & S & _). pose proof W as (Hs & Ht & H1 & H2 & H3 & H4).
  assert (N : 0 < fst (size m) /\ 0 < snd (size m)) by apply (g_size _ G).
  assert (WC : forall w, in_range sn w -> in_range (size m) (window_cell (size m) (start m) tl w) /\
    world_index m (window_cell (size m) (start m) tl w) = (fst (world_index m tl) + fst w, snd (world_index m tl) + snd w)).
  { intros w Hw. destruct (window_wrap _ _ _ _ _ W Hw) as [A B]. rewrite (unwrap_world m tl G Ht) in A, B.
    assert (R : in_range (size m) (window_cell (size m) (start m) tl w)).
    { rewrite <- B. apply wrap_in_range; auto. }
    split; auto. rewrite <- (unwrap_world m _ G R), <- B. apply unwrap_wrap; auto. }
  rewrite in_map_iff. split.
  - intros ((j & w) & <- & Hw). cbn [fst]. apply S in Hw as [Hw ->]. destruct (WC w Hw) as [A ->]. split; auto.
    cbn [fst snd]. destruct Hw. lia.
  - intros (Ri & A & B). set (w := (fst (world_index m i) - fst (world_index m tl), snd (world_index m i) - snd (world_index m tl))).
    assert (Hw : in_range sn w) by (unfold in_range, w; cbn [fst snd]; lia).
    exists (i, w). split; auto. apply S. split; auto. destruct (WC w Hw) as [C D].
    apply (world_index_inj m); auto. rewrite D. unfold w. cbn [fst snd].
    rewrite (surjective_pairing (world_index m i)) at 1. f_equal; lia.
Qed.

(* ------------------------------------------------------------------ *)
(** ** Bounding boxes *)

Section Box.
Context {E : Env} (X : Exact E).

Lemma box_axis pt pb c L r n tu bu : (0 < r)%Q -> (L == inject_Z n * r)%Q -> (pb <= pt)%Q ->
  (border_eps pt < r)%Q -> (border_eps pb < r)%Q -> 0 <= tu < n -> 0 <= bu < n ->
  contains1 r (centre1 L c r tu) (bound_position1 pt L c) ->
  contains1 r (centre1 L c r bu) (bound_position1 pb L c) ->
  tu <= bu /\
  (forall k, 0 <= k < n -> (pb <= centre1 L c r k)%Q -> (centre1 L c r k <= pt)%Q -> tu <= k <= bu).
Proof.
  intros Hr HL Hle Et Eb Rt Rb Ct Cb.
  assert (inject_Z 1 * r <= L)%Q as L1.
  { rewrite HL. apply Qmult_le_compat_r; [|lra]. rewrite <- Zle_Qle. lia. }
  change (inject_Z 1) with 1%Q in L1.
  destruct (bound_position1_ok X pt L c r Hr ltac:(lra) Et) as (T1 & T2 & T3 & T4 & T5).
  destruct (bound_position1_ok X pb L c r Hr ltac:(lra) Eb) as (B1 & B2 & B3 & B4 & B5).
  rewrite contains1_iff in Ct, Cb by auto. destruct Ct as [Ct1 Ct2], Cb as [Cb1 Cb2].
  set (bt := bound_position1 pt L c) in *. set (bb := bound_position1 pb L c) in *. clearbody bt bb.
  assert (Lt : forall a b : Z, (inject_Z a * r < (inject_Z b + 1) * r)%Q -> a <= b).
  { intros a b H. apply Qmult_lt_r in H; auto. change 1%Q with (inject_Z 1) in H. rewrite <- inject_Z_plus, <- Zlt_Qlt in H. lia. }
  assert (L / 2 + L / 2 == L)%Q as HL2 by field.
  assert (NR : (inject_Z (n - 1) * r == L - r)%Q).
  { rewrite HL. unfold Z.sub. rewrite inject_Z_plus. change (inject_Z (-(1))) with (-(1))%Q. ring. }
  assert (Hh : exists h, (L / 2 == h)%Q) by (eexists; reflexivity). destruct Hh as [h Hh]. rewrite Hh in *.
  (* clamped at the top: first cell; clamped at the bottom: last cell *)
  assert (U0 : (c + h <= pt)%Q -> tu <= 0). { intros K. apply Lt. specialize (T3 K). change (inject_Z 0) with 0%Q. lra. }
  assert (B0 : (c + h <= pb)%Q -> tu <= 0). { intros K. apply U0. lra. }
  assert (BN : (pb <= c - h)%Q -> n - 1 <= bu). { intros K. apply Lt. specialize (B4 K). rewrite NR. lra. }
  split.
  - destruct (Qlt_le_dec pt (c + h)) as [A|A]; [|specialize (U0 A); lia].
    destruct (Qlt_le_dec (c - h) pb) as [A'|A']; [|specialize (BN A'); lia].
    assert (bt == pt)%Q by (apply T5; lra). assert (bb == pb)%Q by (apply B5; lra).
    apply Lt. lra.
  - intros k Hk K1 K2. assert (CK : (inject_Z k * r < c + h - centre1 L c r k < (inject_Z k + 1) * r)%Q).
    { unfold centre1. rewrite Hh.
      assert ((inject_Z k + (1 # 2)) * r == inject_Z k * r + r / 2)%Q as -> by field.
      assert ((inject_Z k + 1) * r == inject_Z k * r + r)%Q as -> by ring.
      assert (r / 2 + r / 2 == r)%Q by field. split; lra. }
    assert (CI : (c - h < centre1 L c r k /\ centre1 L c r k < c + h)%Q).
    { assert (inject_Z k * r <= inject_Z (n - 1) * r)%Q.
      { apply Qmult_le_compat_r; [|lra]. rewrite <- Zle_Qle. lia. }
      assert (0 <= inject_Z k * r)%Q. { apply Qmult_le_0_compat; [apply inject_Z_nonneg; lia|lra]. }
      assert ((inject_Z k + 1) * r == inject_Z k * r + r)%Q as E1 by ring. rewrite E1 in CK. lra. }
    set (x := centre1 L c r k) in *. clearbody x. split.
    + destruct (Qlt_le_dec pt (c + h)) as [A|A]; [|specialize (U0 A); lia].
      assert (bt == pt)%Q by (apply T5; lra). apply Lt. lra.
    + destruct (Qlt_le_dec (c - h) pb) as [A'|A']; [|specialize (BN A'); lia].
      assert (bb == pb)%Q by (apply B5; lra). apply Lt. lra.
Qed.

Lemma corner_contains m p : geo_ok m -> (border_eps (fst p) < resn m)%Q -> (border_eps (snd p) < resn m)%Q ->
  in_range (size m) (corner_index m p) /\ contains (resn m) (centre m (corner_index m p)) (bound_position p (len m) (pos m)).
Proof.
  intros G E1 E2. destruct (g_len _ G) as [L1 L2]; cbn [fst snd] in L1, L2. pose proof (g_res _ G) as Hr. destruct (g_size _ G).
  apply (getIndex_contains X m); auto.
  assert (LL : forall L n, (L == inject_Z n * resn m)%Q -> 0 < n -> (resn m <= L)%Q).
  { intros L n -> Hn. assert (1 <= inject_Z n)%Q. { change 1%Q with (inject_Z 1). rewrite <- Zle_Qle. lia. } nra. }
  destruct (bound_position1_ok X (fst p) (fst (len m)) (fst (pos m)) (resn m)) as (A1 & A2 & _); eauto.
  destruct (bound_position1_ok X (snd p) (snd (len m)) (snd (pos m)) (resn m)) as (A3 & A4 & _); eauto.
  unfold inside, bound_position; cbn [fst snd]; auto.
Qed.

(** The corner positions of a box are well away from the precision limit of the
    clamping at the map's border. *)
Definition eps_ok (m : cmap) (pt pb : vec) : Prop :=
  (border_eps (fst pt) < resn m)%Q /\ (border_eps (snd pt) < resn m)%Q /\
  (border_eps (fst pb) < resn m)%Q /\ (border_eps (snd pb) < resn m)%Q.

Lemma box_window m pt pb : geo_ok m -> eps_ok m pt pb -> (fst pb <= fst pt)%Q -> (snd pb <= snd pt)%Q ->
  let s := corner_index m pt in let e := corner_index m pb in
  in_range (size m) s /\ in_range (size m) e /\
  fst (world_index m s) <= fst (world_index m e) /\ snd (world_index m s) <= snd (world_index m e) /\
  forall i, in_range (size m) i ->
    (fst pb <= fst (centre m i))%Q -> (fst (centre m i) <= fst pt)%Q ->
    (snd pb <= snd (centre m i))%Q -> (snd (centre m i) <= snd pt)%Q ->
    fst (world_index m s) <= fst (world_index m i) <= fst (world_index m e) /\
    snd (world_index m s) <= snd (world_index m i) <= snd (world_index m e).
Proof.
  intros G (E1 & E2 & E3 & E4) O1 O2 s e. destruct (g_len _ G) as [L1 L2]; cbn [fst snd] in L1, L2. pose proof (g_res _ G) as Hr.
  destruct (corner_contains m pt G E1 E2) as [Rs [Cs1 Cs2]]. destruct (corner_contains m pb G E3 E4) as [Re [Ce1 Ce2]].
  fold s in Rs, Cs1, Cs2. fold e in Re, Ce1, Ce2.
  destruct (world_in_range m s G) as [Ws1 Ws2]. destruct (world_in_range m e G) as [We1 We2].
  destruct (box_axis _ _ _ _ _ _ _ _ Hr L1 O1 E1 E3 Ws1 We1 Cs1 Ce1) as [M1 K1].
  destruct (box_axis _ _ _ _ _ _ _ _ Hr L2 O2 E2 E4 Ws2 We2 Cs2 Ce2) as [M2 K2].
  repeat (split; [assumption|]). intros i Ri A1 A2 A3 A4. destruct (world_in_range m i G) as [Wi1 Wi2]. split; [now apply K1|now apply K2].
Qed.

(** Window size computed from unwrapped corners. *)
Lemma window_unwrapped m s e : geo_ok m -> in_range (size m) s -> in_range (size m) e ->
  fst (world_index m s) <= fst (world_index m e) -> snd (world_index m s) <= snd (world_index m e) ->
  window_ok (size m) (start m) s (submap_size_from_corners s e (size m) (start m)) /\
  fst (submap_size_from_corners s e (size m) (start m)) = fst (world_index m e) - fst (world_index m s) + 1 /\
  snd (submap_size_from_corners s e (size m) (start m)) = snd (world_index m e) - snd (world_index m s) + 1.
Proof.
  intros G Rs Re A B. unfold submap_size_from_corners. rewrite !unwrap_world by auto. cbn [fst snd]. split; [|auto].
  destruct (world_in_range m e G). unfold window_ok. cbn [fst snd].
  change ((fst s - fst (start m)) mod fst (size m)) with (fst (world_index m s)).
  change ((snd s - snd (start m)) mod snd (size m)) with (snd (world_index m s)).
  split; [apply (g_start _ G)|]. split; auto. lia.
Qed.

Lemma filter_iff {A} (f : A -> bool) l P : (forall i, In i l -> (f i = true <-> P i)) ->
  forall i, In i (filter f l) <-> In i l /\ P i.
Proof. intros H i. rewrite filter_In. specialize (H i). tauto. Qed.

(** A filtered loop over the box between two corners. *)
Lemma box_filtered m pt pb ins f (P : idx -> Prop) : geo_ok m -> eps_ok m pt pb -> (fst pb <= fst pt)%Q -> (snd pb <= snd pt)%Q ->
  (forall i, in_range (size m) i -> ins i = Ok (f i)) ->
  (forall i, in_range (size m) i -> (f i = true <-> P i)) ->
  (forall i, in_range (size m) i -> P i ->
    (fst pb <= fst (centre m i))%Q /\ (fst (centre m i) <= fst pt)%Q /\
    (snd pb <= snd (centre m i))%Q /\ (snd (centre m i) <= snd pt)%Q) ->
  let s := corner_index m pt in let e := corner_index m pb in
  exists vs, filt_visits ins (size m) (start m) s (submap_size_from_corners s e (size m) (start m)) = Ok vs /\
    NoDup vs /\ forall i, In i vs <-> in_range (size m) i /\ P i.
Proof.
  intros G EO O1 O2 HI HF HB s e. destruct (box_window m pt pb G EO O1 O2) as (Rs & Re & A & B & K). fold s in Rs, A, B, K. fold e in Re, A, B, K.
  destruct (window_unwrapped m s e G Rs Re A B) as (W & S1 & S2).
  rewrite (filt_window ins f) by auto. eexists. split; [reflexivity|]. split.
  - apply NoDup_filter. apply (window_list_spec _ _ _ _ W).
  - intros i. rewrite filter_In, (window_list_world m _ _ i G W), S1, S2. split.
    + intros ((Ri & _) & Fi). split; auto. now apply HF.
    + intros (Ri & Pi). destruct (HB i Ri Pi) as (B1 & B2 & B3 & B4). destruct (K i Ri B1 B2 B3 B4). 
      split; [split; [auto|lia]|now apply HF].
Qed.

(** Window size computed from buffer indices. *)
Definition naive_size (s e : idx) : idx := (fst e - fst s + 1, snd e - snd s + 1).

Lemma naive_unmoved m s e : geo_ok m -> start m = (0, 0) -> 
  naive_size s e = submap_size_from_corners s e (size m) (start m).
Proof. intros G S. unfold naive_size, submap_size_from_corners, unwrap_index. rewrite S. reflexivity. Qed.

(** On a moved map the naive window is the right one, or smaller. *)
Lemma naive_smaller m s e : geo_ok m -> in_range (size m) s -> in_range (size m) e ->
  fst (world_index m s) <= fst (world_index m e) -> snd (world_index m s) <= snd (world_index m e) ->
  fst (naive_size s e) <= fst (world_index m e) - fst (world_index m s) + 1 /\
  snd (naive_size s e) <= snd (world_index m e) - snd (world_index m s) + 1.
Proof.
  intros G Rs Re A B. unfold naive_size. cbn [fst snd].
  assert (AX : forall a b st n, 0 <= a < n -> 0 <= b < n -> 0 <= st < n -> (a - st) mod n <= (b - st) mod n ->
     b - a <= (b - st) mod n - (a - st) mod n).
  { intros a b st n Ha Hb Hst H.
    assert (M : forall x, 0 <= x < n -> (x - st) mod n = if st <=? x then x - st else x - st + n).
    { intros x Hx. destruct (st <=? x) eqn:K; [apply Z.mod_small; lia|].
      rewrite <- (Z.mod_add _ 1) by lia. rewrite Z.mod_small by lia. lia. }
    rewrite !M in * by lia. destruct (st <=? a) eqn:K1, (st <=? b) eqn:K2; lia. }
  destruct Rs, Re. destruct (g_start _ G). unfold world_index in *. cbn [fst snd] in *.
  split; [pose proof (AX (fst s) (fst e) (fst (start m)) (fst (size m)))|pose proof (AX (snd s) (snd e) (snd (start m)) (snd (size m)))]; lia.
Qed.

Lemma box_filtered_sound m pt pb ins f (P : idx -> Prop) : geo_ok m -> eps_ok m pt pb -> (fst pb <= fst pt)%Q -> (snd pb <= snd pt)%Q ->
  (forall i, in_range (size m) i -> ins i = Ok (f i)) ->
  (forall i, in_range (size m) i -> (f i = true <-> P i)) ->
  let s := corner_index m pt in let e := corner_index m pb in
  exists vs, filt_visits ins (size m) (start m) s (naive_size s e) = Ok vs /\
    NoDup vs /\ forall i, In i vs -> in_range (size m) i /\ P i.
Proof.
  intros G EO O1 O2 HI HF s e. destruct (box_window m pt pb G EO O1 O2) as (Rs & Re & A & B & K). fold s in Rs, A, B, K. fold e in Re, A, B, K.
  destruct (naive_smaller m s e G Rs Re A B) as [N1 N2].
  destruct (Z_le_gt_dec (fst (naive_size s e)) 0) as [D|D]; [|destruct (Z_le_gt_dec (snd (naive_size s e)) 0) as [D'|D']].
  3: {
    assert (W : window_ok (size m) (start m) s (naive_size s e)).
    { destruct (world_in_range m e G). unfold window_ok.
      change ((fst s - fst (start m)) mod fst (size m)) with (fst (world_index m s)).
      change ((snd s - snd (start m)) mod snd (size m)) with (snd (world_index m s)).
      split; [apply (g_start _ G)|]. split; auto. lia. }
    rewrite (filt_window ins f) by auto. eexists. split; [reflexivity|]. split.
    - apply NoDup_filter. apply (window_list_spec _ _ _ _ W).
    - intros i. rewrite filter_In, (window_list_world m _ _ i G W). intros ((Ri & _) & Fi). split; auto. now apply HF. }
  all: rewrite (filt_degenerate ins f) by auto; eexists; (split; [reflexivity|]); (split; [apply NoDup_filter; repeat constructor; auto|]);
    intros i; rewrite filter_In; intros [[<-|[]] F]; split; auto; now apply HF.
Qed.

(* ------------------------------------------------------------------ *)
(** ** The three iterators *)

Lemma Qle_bool_true a b c d : (a == c -> b == d -> (Qle_bool a b = true <-> c <= d))%Q.
Proof. intros -> ->. apply Qle_bool_iff. Qed.

Lemma position_ok m i : geo_ok m -> in_range (size m) i ->
  exists p, position_or_uninit m i = Ok p /\ veq p (centre m i).
Proof.
  intros G R. unfold position_or_uninit. destruct (getPosition_centre X m i G R) as (p & -> & V). eauto.
Qed.

Definition circle_f (m : cmap) (c : vec) (R : Q) (i : idx) : bool :=
  match circle_inside m c R i with Ok b => b | _ => false end.

Lemma circle_inside_ok m c R i : geo_ok m -> in_range (size m) i ->
  circle_inside m c R i = Ok (circle_f m c R i) /\ (circle_f m c R i = true <-> in_circle c R (centre m i)).
Proof.
  intros G Ri. unfold circle_f, circle_inside. destruct (position_ok m i G Ri) as (p & -> & V1 & V2). cbn [rbind].
  split; auto. unfold in_circle. apply Qle_bool_true; exqX X; [|reflexivity]. rewrite V1, V2. reflexivity.
Qed.

Lemma square_abs x R : (0 <= R)%Q -> (x * x <= R * R)%Q -> (- R <= x /\ x <= R)%Q.
Proof. intros HR H. split; apply Qnot_lt_le; intros K; nra. Qed.

Lemma square_nonneg x : (0 <= x * x)%Q.
Proof. destruct (Qlt_le_dec x 0); nra. Qed.

Lemma in_circle_box c R p : (0 <= R)%Q -> in_circle c R p ->
  (fst c - R <= fst p /\ fst p <= fst c + R /\ snd c - R <= snd p /\ snd p <= snd c + R)%Q.
Proof.
  intros HR H. unfold in_circle in H.
  pose proof (square_nonneg (fst p - fst c)). pose proof (square_nonneg (snd p - snd c)).
  destruct (square_abs (fst p - fst c) R HR); [lra|]. destruct (square_abs (snd p - snd c) R HR); [lra|]. lra.
Qed.

Lemma border_eps_comp x y : (x == y -> border_eps x == border_eps y)%Q.
Proof.
  intros Exy. unfold border_eps. assert (Qabs x == Qabs y)%Q as Ea by now rewrite Exy.
  destruct (Qlt_le_dec 1 (Qabs x)), (Qlt_le_dec 1 (Qabs y)); rewrite ?Ea; try reflexivity; exfalso; lra.
Qed.

Definition circle_eps (m : cmap) (c : vec) (R : Q) : Prop :=
  (border_eps (fst c + R) < resn m)%Q /\ (border_eps (snd c + R) < resn m)%Q /\
  (border_eps (fst c - R) < resn m)%Q /\ (border_eps (snd c - R) < resn m)%Q.

Lemma circle_eps_ok m c R : circle_eps m c R -> eps_ok m (fadd (fst c) R, fadd (snd c) R) (fsub (fst c) R, fsub (snd c) R).
Proof.
  intros (A & B & C & D). unfold eps_ok. cbn [fst snd].
  rewrite (border_eps_comp (fadd (fst c) R) (fst c + R)%Q (fadd_eq X _ _)), (border_eps_comp (fadd (snd c) R) (snd c + R)%Q (fadd_eq X _ _)),
    (border_eps_comp (fsub (fst c) R) (fst c - R)%Q (fsub_eq X _ _)), (border_eps_comp (fsub (snd c) R) (snd c - R)%Q (fsub_eq X _ _)). auto.
Qed.

Lemma circle_final m c R : geo_ok m -> start m = (0, 0) -> (0 <= R)%Q -> circle_eps m c R ->
  exists vs, circle_visits m c R = Ok vs /\ NoDup vs /\
    forall i, In i vs <-> in_range (size m) i /\ in_circle c R (centre m i).
Proof.
  intros G S HR EO. unfold circle_visits, circle_window.
  change (fst (corner_index m (fsub (fst c) R, fsub (snd c) R)) - fst (corner_index m (fadd (fst c) R, fadd (snd c) R)) + 1,
          snd (corner_index m (fsub (fst c) R, fsub (snd c) R)) - snd (corner_index m (fadd (fst c) R, fadd (snd c) R)) + 1)
    with (naive_size (corner_index m (fadd (fst c) R, fadd (snd c) R)) (corner_index m (fsub (fst c) R, fsub (snd c) R))).
  rewrite (naive_unmoved m) by auto.
  apply (box_filtered m (fadd (fst c) R, fadd (snd c) R) (fsub (fst c) R, fsub (snd c) R) (circle_inside m c R) (circle_f m c R));
    auto using circle_eps_ok.
  - cbn [fst]. exqX X. lra.
  - cbn [snd]. exqX X. lra.
  - intros i Hi. now apply circle_inside_ok.
  - intros i Hi. now apply circle_inside_ok.
  - intros i Hi Hc. cbn [fst snd]. destruct (in_circle_box _ _ _ HR Hc) as (A1 & A2 & A3 & A4).
    exqX X. auto.
Qed.

Lemma circle_sound m c R : geo_ok m -> (0 <= R)%Q -> circle_eps m c R ->
  exists vs, circle_visits m c R = Ok vs /\ NoDup vs /\
    forall i, In i vs -> in_range (size m) i /\ in_circle c R (centre m i).
Proof.
  intros G HR EO. unfold circle_visits, circle_window.
  change (fst (corner_index m (fsub (fst c) R, fsub (snd c) R)) - fst (corner_index m (fadd (fst c) R, fadd (snd c) R)) + 1,
          snd (corner_index m (fsub (fst c) R, fsub (snd c) R)) - snd (corner_index m (fadd (fst c) R, fadd (snd c) R)) + 1)
    with (naive_size (corner_index m (fadd (fst c) R, fadd (snd c) R)) (corner_index m (fsub (fst c) R, fsub (snd c) R))).
  apply (box_filtered_sound m (fadd (fst c) R, fadd (snd c) R) (fsub (fst c) R, fsub (snd c) R) (circle_inside m c R) (circle_f m c R));
    auto using circle_eps_ok.
  - cbn [fst]. exqX X. lra.
  - cbn [snd]. exqX X. lra.
  - intros i Hi. now apply circle_inside_ok.
  - intros i Hi. now apply circle_inside_ok.
Qed.

Definition ellipse_f (m : cmap) (c L : vec) (cs sn : Q) (i : idx) : bool :=
  match ellipse_inside m c L cs sn i with Ok b => b | _ => false end.

Lemma ellipse_inside_ok m c L cs sn i : (0 < fst L)%Q -> (0 < snd L)%Q -> geo_ok m -> in_range (size m) i ->
  ellipse_inside m c L cs sn i = Ok (ellipse_f m c L cs sn i) /\ (ellipse_f m c L cs sn i = true <-> in_ellipse c L cs sn (centre m i)).
Proof.
  intros P1 P2 G Ri. unfold ellipse_f, ellipse_inside. destruct (position_ok m i G Ri) as (p & -> & V1 & V2). cbn [rbind].
  split; auto. unfold in_ellipse. apply Qle_bool_true; [|reflexivity].
  set (dx := fsub (fst p) (fst c)). set (dy := fsub (snd p) (snd c)).
  assert (Dx : (dx == fst (centre m i) - fst c)%Q) by (unfold dx; exqX X; now rewrite V1).
  assert (Dy : (dy == snd (centre m i) - snd c)%Q) by (unfold dy; exqX X; now rewrite V2).
  clearbody dx dy. set (a := fadd (fmul cs dx) (fmul sn dy)). set (b := fadd (fmul sn dx) (fmul (- cs) dy)).
  assert (Da : (a == cs * dx + sn * dy)%Q) by (unfold a; now exqX X).
  assert (Db : (b == sn * dx - cs * dy)%Q) by (unfold b; exqX X; ring).
  clearbody a b. rewrite <- Dx, <- Dy. set (ha := fmul (1#2) (fst L)). set (hb := fmul (1#2) (snd L)).
  assert (Dha : (ha == fst L / 2)%Q) by (unfold ha; exqX X; field).
  assert (Dhb : (hb == snd L / 2)%Q) by (unfold hb; exqX X; field).
  clearbody ha hb. rewrite (fadd_eq X), !(fdiv_eq X), !(fmul_eq X), Dha, Dhb, Da, Db. reflexivity.
Qed.

Lemma cauchy a b x y : (x * x + y * y <= 1 -> (a * x + b * y) * (a * x + b * y) <= a * a + b * b)%Q.
Proof.
  intros H.
  assert (0 <= (a * y - b * x) * (a * y - b * x))%Q by apply square_nonneg.
  assert ((a * x + b * y) * (a * x + b * y) == (a * a + b * b) * (x * x + y * y) - (a * y - b * x) * (a * y - b * x))%Q as -> by ring.
  pose proof (square_nonneg a). pose proof (square_nonneg b). nra.
Qed.

Lemma in_ellipse_axis A B cs sn dx dy h : (0 < A)%Q -> (0 < B)%Q -> (9#10 <= cs * cs + sn * sn)%Q ->
  ((cs * dx + sn * dy) * (cs * dx + sn * dy) / (A / 2 * (A / 2)) + (sn * dx - cs * dy) * (sn * dx - cs * dy) / (B / 2 * (B / 2)) <= 1)%Q ->
  (0 <= h)%Q -> ((cs * A * (cs * A) + sn * B * (sn * B)) * (8#10) <= h * h)%Q ->
  (- h <= dx /\ dx <= h)%Q.
Proof.
  intros HA HB HN HE Hh Hhh. apply square_abs; auto.
  set (x := ((cs * dx + sn * dy) / (A / 2))%Q). set (y := ((sn * dx - cs * dy) / (B / 2))%Q).
  assert (E1 : (x * x + y * y <= 1)%Q).
  { unfold x, y. assert ((cs * dx + sn * dy) / (A / 2) * ((cs * dx + sn * dy) / (A / 2)) + (sn * dx - cs * dy) / (B / 2) * ((sn * dx - cs * dy) / (B / 2))
      == (cs * dx + sn * dy) * (cs * dx + sn * dy) / (A / 2 * (A / 2)) + (sn * dx - cs * dy) * (sn * dx - cs * dy) / (B / 2 * (B / 2)))%Q as ->; auto.
    field. split; lra. }
  pose proof (cauchy (cs * A) (sn * B) x y E1) as C.
  assert (K : ((cs * A) * x + (sn * B) * y == 2 * (dx * (cs * cs + sn * sn)))%Q).
  { unfold x, y. field. split; lra. }
  rewrite K in C.
  set (N := (cs * cs + sn * sn)%Q) in *. set (W := (cs * A * (cs * A) + sn * B * (sn * B))%Q) in *.
  assert (C' : (4 * (N * N) * (dx * dx) <= W)%Q). { assert (4 * (N * N) * (dx * dx) == 2 * (dx * N) * (2 * (dx * N)))%Q as -> by ring. exact C. }
  pose proof (square_nonneg dx) as Sd. assert ((81#100) <= N * N)%Q by nra.
  assert ((324 # 100) * (dx * dx) <= W)%Q. { apply Qle_trans with (4 * (N * N) * (dx * dx))%Q; auto. apply Qmult_le_compat_r; auto. lra. }
  lra.
Qed.

Definition ellipse_half (sqr : Q -> Q) (L : vec) (cs sn : Q) : vec :=
  (sqr (fadd (fmul (fmul cs (fst L)) (fmul cs (fst L))) (fmul (fmul (Qopp sn) (snd L)) (fmul (Qopp sn) (snd L)))),
   sqr (fadd (fmul (fmul sn (fst L)) (fmul sn (fst L))) (fmul (fmul cs (snd L)) (fmul cs (snd L))))).

(** No clamping problem for any box of at most the size of the circle around the
    bounding box: |coordinates| below centre + 2 (L0 + L1). *)
Definition ellipse_eps (m : cmap) (sqr : Q -> Q) (c L : vec) (cs sn : Q) : Prop :=
  let h := ellipse_half sqr L cs sn in
  eps_ok m (fadd (fst c) (fst h), fadd (snd c) (snd h)) (fsub (fst c) (fst h), fsub (snd c) (snd h)).

Lemma border_eps_mono x y : (Qabs x <= Qabs y)%Q -> (border_eps x <= border_eps y)%Q.
Proof.
  unfold border_eps. destruct (Qlt_le_dec 1 (Qabs x)), (Qlt_le_dec 1 (Qabs y)); lra.
Qed.

Lemma near_eps r c L h p : (0 <= L)%Q -> (0 <= h)%Q -> (h * h <= L * L)%Q -> (border_eps (Qabs c + L) < r)%Q ->
  (p == c + h \/ p == c - h)%Q -> (border_eps p < r)%Q.
Proof.
  intros HL Hh HH B Hp. eapply Qle_lt_trans; [|exact B]. apply border_eps_mono.
  assert (h <= L)%Q by (apply Qnot_lt_le; intros K; nra).
  rewrite (Qabs_pos (Qabs c + L)) by (pose proof (Qabs_nonneg c); lra).
  apply Qabs_Qle_condition. pose proof (Qle_Qabs c). pose proof (Qle_Qabs (- c)). rewrite Qabs_opp in *. lra.
Qed.

Lemma ellipse_eps_ok sqr m c L cs sn : sqrt_approx sqr -> (0 < fst L)%Q -> (0 < snd L)%Q -> (cs * cs + sn * sn <= 11#10)%Q ->
  (border_eps (Qabs (fst c) + 2 * (fst L + snd L)) < resn m)%Q -> (border_eps (Qabs (snd c) + 2 * (fst L + snd L)) < resn m)%Q ->
  ellipse_eps m sqr c L cs sn.
Proof.
  intros SQ P1 P2 HN B1 B2.
  assert (N0 : (0 <= cs * cs)%Q) by apply square_nonneg. assert (N1 : (0 <= sn * sn)%Q) by apply square_nonneg.
  assert (B : forall a b z, (0 <= a)%Q -> (0 <= b)%Q -> (a + b <= 11#10)%Q -> (z == a * (fst L * fst L) + b * (snd L * snd L))%Q ->
    (0 <= sqr z /\ sqr z * sqr z <= (2 * (fst L + snd L)) * (2 * (fst L + snd L)))%Q).
  { intros a b z Ha Hb Hab Hz.
    assert (0 <= fst L * fst L)%Q by apply square_nonneg. assert (0 <= snd L * snd L)%Q by apply square_nonneg.
    assert (0 <= a * (fst L * fst L))%Q by (apply Qmult_le_0_compat; auto).
    assert (0 <= b * (snd L * snd L))%Q by (apply Qmult_le_0_compat; auto).
    assert (0 <= ((11#10) - a) * (fst L * fst L))%Q by (apply Qmult_le_0_compat; lra).
    assert (0 <= ((11#10) - b) * (snd L * snd L))%Q by (apply Qmult_le_0_compat; lra).
    assert (0 <= fst L * snd L)%Q by (apply Qmult_le_0_compat; lra).
    destruct (SQ z) as (S1 & S2 & S3); [lra|]. split; [exact S1|]. lra. }
  unfold ellipse_eps, eps_ok, ellipse_half. cbn [fst snd].
  destruct (B (cs * cs)%Q (sn * sn)%Q (fadd (fmul (fmul cs (fst L)) (fmul cs (fst L))) (fmul (fmul (Qopp sn) (snd L)) (fmul (Qopp sn) (snd L))))) as [X3 X4]; auto.
  { exqX X. ring. }
  destruct (B (sn * sn)%Q (cs * cs)%Q (fadd (fmul (fmul sn (fst L)) (fmul sn (fst L))) (fmul (fmul cs (snd L)) (fmul cs (snd L))))) as [X5 X6]; auto.
  { lra. } { exqX X. ring. }
  split; [|split; [|split]].
  - eapply (near_eps _ (fst c) (2 * (fst L + snd L)) _ _ ltac:(lra) X3 X4 B1). left. now exqX X.
  - eapply (near_eps _ (snd c) (2 * (fst L + snd L)) _ _ ltac:(lra) X5 X6 B2). left. now exqX X.
  - eapply (near_eps _ (fst c) (2 * (fst L + snd L)) _ _ ltac:(lra) X3 X4 B1). right. now exqX X.
  - eapply (near_eps _ (snd c) (2 * (fst L + snd L)) _ _ ltac:(lra) X5 X6 B2). right. now exqX X.
Qed.

Lemma circle_eps_near m c R : (0 <= R)%Q ->
  (border_eps (Qabs (fst c) + R) < resn m)%Q -> (border_eps (Qabs (snd c) + R) < resn m)%Q -> circle_eps m c R.
Proof.
  intros HR B1 B2. unfold circle_eps.
  split; [|split; [|split]].
  - apply (near_eps _ _ R R _ HR HR (Qle_refl _) B1). now left.
  - apply (near_eps _ _ R R _ HR HR (Qle_refl _) B2). now left.
  - apply (near_eps _ _ R R _ HR HR (Qle_refl _) B1). now right.
  - apply (near_eps _ _ R R _ HR HR (Qle_refl _) B2). now right.
Qed.

Lemma ellipse_box sqr c L cs sn p : sqrt_approx sqr -> (0 < fst L)%Q -> (0 < snd L)%Q -> (9#10 <= cs * cs + sn * sn)%Q ->
  in_ellipse c L cs sn p ->
  let h := ellipse_half sqr L cs sn in
  (fst c - fst h <= fst p /\ fst p <= fst c + fst h /\ snd c - snd h <= snd p /\ snd p <= snd c + snd h)%Q.
Proof.
  intros SQ P1 P2 HN HE h. unfold in_ellipse in HE. cbn zeta in HE.
  assert (Hx : forall z, (z == cs * fst L * (cs * fst L) + sn * snd L * (sn * snd L))%Q -> (0 <= z)%Q).
  { intros z ->. pose proof (square_nonneg (cs * fst L)). pose proof (square_nonneg (sn * snd L)). lra. }
  assert (Hy : forall z, (z == sn * fst L * (sn * fst L) + cs * snd L * (cs * snd L))%Q -> (0 <= z)%Q).
  { intros z ->. pose proof (square_nonneg (sn * fst L)). pose proof (square_nonneg (cs * snd L)). lra. }
  unfold h, ellipse_half. cbn [fst snd].
  set (zx := fadd (fmul (fmul cs (fst L)) _) _). set (zy := fadd (fmul (fmul sn (fst L)) _) _).
  assert (Zx : (zx == cs * fst L * (cs * fst L) + sn * snd L * (sn * snd L))%Q) by (unfold zx; exqX X; ring).
  assert (Zy : (zy == sn * fst L * (sn * fst L) + cs * snd L * (cs * snd L))%Q) by (unfold zy; exqX X; ring).
  destruct (SQ zx (Hx _ Zx)) as (S1 & S2 & _). destruct (SQ zy (Hy _ Zy)) as (S3 & S4 & _). 
  clearbody zx zy.
  assert (S2' : ((cs * fst L * (cs * fst L) + sn * snd L * (sn * snd L)) * (8#10) <= sqr zx * sqr zx)%Q) by (rewrite <- Zx; pose proof (Hx _ Zx); lra).
  assert (S4' : ((sn * fst L * (sn * fst L) + cs * snd L * (cs * snd L)) * (8#10) <= sqr zy * sqr zy)%Q) by (rewrite <- Zy; pose proof (Hy _ Zy); lra).
  destruct (in_ellipse_axis (fst L) (snd L) cs sn (fst p - fst c) (snd p - snd c) (sqr zx) P1 P2 HN HE S1 S2').
  assert (HE' : ((sn * (snd p - snd c) + cs * (fst p - fst c)) * (sn * (snd p - snd c) + cs * (fst p - fst c)) / (fst L / 2 * (fst L / 2)) +
     (cs * (snd p - snd c) - sn * (fst p - fst c)) * (cs * (snd p - snd c) - sn * (fst p - fst c)) / (snd L / 2 * (snd L / 2)) <= 1)%Q).
  { eapply Qle_trans; [|exact HE]. apply Qle_lteq. right. field. split; lra. }
  destruct (in_ellipse_axis (fst L) (snd L) sn cs (snd p - snd c) (fst p - fst c) (sqr zy) P1 P2) as [A B]; auto; lra.
Qed.

Lemma ellipse_half_nonneg sqr L cs sn : sqrt_approx sqr -> (0 <= fst (ellipse_half sqr L cs sn) /\ 0 <= snd (ellipse_half sqr L cs sn))%Q.
Proof.
  intros SQ. unfold ellipse_half. cbn [fst snd].
  split; apply SQ; exqX X; match goal with |- (0 <= ?a * ?a + ?b * ?b)%Q => pose proof (square_nonneg a); pose proof (square_nonneg b) end; lra.
Qed.

Lemma ellipse_final sqr m c L cs sn : sqrt_approx sqr -> geo_ok m -> start m = (0, 0) -> (0 < fst L)%Q -> (0 < snd L)%Q ->
  (9#10 <= cs * cs + sn * sn)%Q -> ellipse_eps m sqr c L cs sn ->
  exists vs, ellipse_visits sqr m c L cs sn = Ok vs /\ NoDup vs /\
    forall i, In i vs <-> in_range (size m) i /\ in_ellipse c L cs sn (centre m i).
Proof.
  intros SQ G S P1 P2 HN EO. unfold ellipse_visits, ellipse_window.
  fold (naive_size (corner_index m (fadd (fst c) (fst (ellipse_half sqr L cs sn)), fadd (snd c) (snd (ellipse_half sqr L cs sn))))
                   (corner_index m (fsub (fst c) (fst (ellipse_half sqr L cs sn)), fsub (snd c) (snd (ellipse_half sqr L cs sn))))).
  change (exists vs, filt_visits (ellipse_inside m c L cs sn) (size m) (start m)
    (corner_index m (fadd (fst c) (fst (ellipse_half sqr L cs sn)), fadd (snd c) (snd (ellipse_half sqr L cs sn))))
    (naive_size (corner_index m (fadd (fst c) (fst (ellipse_half sqr L cs sn)), fadd (snd c) (snd (ellipse_half sqr L cs sn))))
                (corner_index m (fsub (fst c) (fst (ellipse_half sqr L cs sn)), fsub (snd c) (snd (ellipse_half sqr L cs sn))))) = Ok vs /\
    NoDup vs /\ forall i, In i vs <-> in_range (size m) i /\ in_ellipse c L cs sn (centre m i)).
  rewrite (naive_unmoved m) by auto. destruct (ellipse_half_nonneg sqr L cs sn SQ).
  apply (box_filtered m _ _ (ellipse_inside m c L cs sn) (ellipse_f m c L cs sn)); auto.
  - cbn [fst]. exqX X. lra.
  - cbn [snd]. exqX X. lra.
  - intros i Hi. now apply ellipse_inside_ok.
  - intros i Hi. now apply ellipse_inside_ok.
  - intros i Hi Hc. cbn [fst snd]. destruct (ellipse_box sqr c L cs sn _ SQ P1 P2 HN Hc) as (A1 & A2 & A3 & A4).
    exqX X. auto.
Qed.

Lemma ellipse_sound sqr m c L cs sn : sqrt_approx sqr -> geo_ok m -> (0 < fst L)%Q -> (0 < snd L)%Q ->
  ellipse_eps m sqr c L cs sn ->
  exists vs, ellipse_visits sqr m c L cs sn = Ok vs /\ NoDup vs /\
    forall i, In i vs -> in_range (size m) i /\ in_ellipse c L cs sn (centre m i).
Proof.
  intros SQ G P1 P2 EO. destruct (ellipse_half_nonneg sqr L cs sn SQ).
  change (exists vs, filt_visits (ellipse_inside m c L cs sn) (size m) (start m)
    (corner_index m (fadd (fst c) (fst (ellipse_half sqr L cs sn)), fadd (snd c) (snd (ellipse_half sqr L cs sn))))
    (naive_size (corner_index m (fadd (fst c) (fst (ellipse_half sqr L cs sn)), fadd (snd c) (snd (ellipse_half sqr L cs sn))))
                (corner_index m (fsub (fst c) (fst (ellipse_half sqr L cs sn)), fsub (snd c) (snd (ellipse_half sqr L cs sn))))) = Ok vs /\
    NoDup vs /\ forall i, In i vs -> in_range (size m) i /\ in_ellipse c L cs sn (centre m i)).
  apply (box_filtered_sound m (fadd (fst c) (fst (ellipse_half sqr L cs sn)), fadd (snd c) (snd (ellipse_half sqr L cs sn)))
     (fsub (fst c) (fst (ellipse_half sqr L cs sn)), fsub (snd c) (snd (ellipse_half sqr L cs sn))) (ellipse_inside m c L cs sn) (ellipse_f m c L cs sn)); auto.
  - cbn [fst]. exqX X. lra.
  - cbn [snd]. exqX X. lra.
  - intros i Hi. now apply ellipse_inside_ok.
  - intros i Hi. now apply ellipse_inside_ok.
Qed.

(* ------------------------------------------------------------------ *)
(** ** Polygons *)

Lemma crosses_iff vi vj p : crosses vi vj p = true <-> edge_crosses p (vi, vj).
Proof.
  unfold crosses, edge_crosses. rewrite andb_true_iff, negb_true_iff, Bool.eqb_false_iff.
  assert (S : Qlt_bool (snd p) (snd vi) <> Qlt_bool (snd p) (snd vj) <-> ~ ((snd p < snd vi)%Q <-> (snd p < snd vj)%Q)).
  { rewrite <- !Qlt_bool_iff. destruct (Qlt_bool (snd p) (snd vi)), (Qlt_bool (snd p) (snd vj)); intuition congruence. }
  rewrite S. split; intros [A B]; (split; [exact A|]).
  - assert (D : ~ (snd vj - snd vi == 0)%Q).
    { intros K. apply A. assert (snd vj == snd vi)%Q as -> by lra. tauto. }
    exists ((snd p - snd vi) / (snd vj - snd vi))%Q. split; [field; auto|].
    apply Qlt_bool_iff in B. revert B. exqX X. intros B. eapply Qlt_le_trans; [exact B|]. apply Qle_lteq. right. field. auto.
  - destruct B as (t & T1 & T2).
    assert (D : ~ (snd vj - snd vi == 0)%Q).
    { intros K. apply A. assert (snd vj == snd vi)%Q as -> by lra. tauto. }
    apply Qlt_bool_iff. exqX X. eapply Qlt_le_trans; [exact T2|]. apply Qle_lteq. right. rewrite T1. field. auto.
Qed.

Lemma edge_crosses_sym a b p : edge_crosses p (a, b) <-> edge_crosses p (b, a).
Proof.
  assert (H : forall a b, edge_crosses p (a, b) -> edge_crosses p (b, a)).
  { intros a' b' [A (t & T1 & T2)]. split; [tauto|]. exists (1 - t)%Q. split; lra. }
  split; apply H.
Qed.

Lemma count_snoc vj vs v p : count_crossings vj (vs ++ [v]) p = (count_crossings vj vs p + (if crosses v (last vs vj) p then 1 else 0))%nat.
Proof.
  revert vj. induction vs as [|a t IH]; intros vj.
  - cbn. lia.
  - cbn [app count_crossings]. rewrite IH. destruct t as [|b t]; [cbn; lia|].
    change (last (a :: b :: t) vj) with (last (b :: t) vj).
    assert (last (b :: t) a = last (b :: t) vj) as ->; [|lia].
    clear. revert b. induction t as [|c t IH]; intros b; [reflexivity|]. exact (IH c).
Qed.

Lemma crossed_combine p a t : crossed p (combine (a :: removelast t) t) (count_crossings a t p).
Proof.
  revert a. induction t as [|b t IH]; intros a; [constructor|].
  assert (C : crossed p (combine (removelast (b :: t)) t) (count_crossings b t p)).
  { destruct t as [|c t]; [constructor|]. change (removelast (b :: c :: t)) with (b :: removelast (c :: t)). apply IH. }
  cbn [combine count_crossings]. destruct (crosses b a p) eqn:K.
  - apply (crossed_yes p (a, b)); [|exact C]. now apply edge_crosses_sym, crosses_iff.
  - apply (crossed_no p (a, b)); [|exact C]. intros K2. apply edge_crosses_sym, crosses_iff in K2. congruence.
Qed.

Lemma crossed_fun p es n n' : crossed p es n -> crossed p es n' -> n = n'.
Proof.
  intros H. revert n'. induction H; intros n' H'; inversion H'; subst; auto; contradiction.
Qed.

Lemma polygon_contains_iff vs p : polygon_contains vs p = true <-> in_polygon vs p.
Proof.
  unfold polygon_contains, in_polygon, polygon_edges. destruct vs as [|v t].
  - split; [discriminate|]. intros (n & H & O). inversion H; subst. destruct O; lia.
  - assert (C : crossed p (combine (v :: t) (t ++ [v])) (count_crossings v (t ++ [v]) p)).
    { pose proof (crossed_combine p v (t ++ [v])) as C. rewrite removelast_last in C. exact C. }
    assert (N : count_crossings (last (v :: t) v) (v :: t) p = count_crossings v (t ++ [v]) p).
    { rewrite count_snoc. cbn [count_crossings].
      assert (last (v :: t) v = last t v) as -> by (destruct t; reflexivity). lia. }
    rewrite N, Nat.odd_spec. split.
    + intros O. eauto.
    + intros (n & H & O). now rewrite <- (crossed_fun _ _ _ _ H C).
Qed.

(** The bounding box contains the polygon. *)
Lemma fold_vmax vs : forall v, (forall w, In w (v :: vs) -> (fst w <= fst (fold_left vmax vs v) /\ snd w <= snd (fold_left vmax vs v))%Q) /\
  (exists w, In w (v :: vs) /\ fst (fold_left vmax vs v) = fst w) /\ (exists w, In w (v :: vs) /\ snd (fold_left vmax vs v) = snd w).
Proof.
  induction vs as [|a t IH]; intros v; cbn [fold_left].
  - split; [intros w [<-|[]]; lra|]. split; exists v; cbn; auto.
  - destruct (IH (vmax v a)) as (A & (w1 & B1 & B2) & (w2 & C1 & C2)).
    assert (M : (fst v <= fst (vmax v a) /\ snd v <= snd (vmax v a) /\ fst a <= fst (vmax v a) /\ snd a <= snd (vmax v a))%Q).
    { unfold vmax. cbn [fst snd]. destruct (Qlt_bool (fst v) (fst a)) eqn:K1, (Qlt_bool (snd v) (snd a)) eqn:K2;
      try apply Qlt_bool_iff in K1; try apply Qlt_bool_iff in K2; try apply Qlt_bool_false in K1; try apply Qlt_bool_false in K2;
      split; [|split; [|split]| |split; [|split]| |split; [|split]| |split; [|split]]; lra. }
    assert (M1 : fst (vmax v a) = fst v \/ fst (vmax v a) = fst a).
    { unfold vmax. cbn [fst]. destruct (Qlt_bool (fst v) (fst a)); auto. }
    assert (M2 : snd (vmax v a) = snd v \/ snd (vmax v a) = snd a).
    { unfold vmax. cbn [snd]. destruct (Qlt_bool (snd v) (snd a)); auto. }
    destruct (A (vmax v a) (or_introl eq_refl)) as [A1 A2].
    split; [|split].
    + intros w [<-|[<-|Hw]]; [split; lra|split; lra|]. apply A. now right.
    + destruct B1 as [<-|B1]; [destruct M1 as [M1|M1]|]; [exists v|exists a|exists w1]; cbn; split; auto; congruence.
    + destruct C1 as [<-|C1]; [destruct M2 as [M2|M2]|]; [exists v|exists a|exists w2]; cbn; split; auto; congruence.
Qed.

Lemma fold_vmin vs : forall v, (forall w, In w (v :: vs) -> (fst (fold_left vmin vs v) <= fst w /\ snd (fold_left vmin vs v) <= snd w)%Q) /\
  (exists w, In w (v :: vs) /\ fst (fold_left vmin vs v) = fst w) /\ (exists w, In w (v :: vs) /\ snd (fold_left vmin vs v) = snd w).
Proof.
  induction vs as [|a t IH]; intros v; cbn [fold_left].
  - split; [intros w [<-|[]]; lra|]. split; exists v; cbn; auto.
  - destruct (IH (vmin v a)) as (A & (w1 & B1 & B2) & (w2 & C1 & C2)).
    assert (M : (fst (vmin v a) <= fst v /\ snd (vmin v a) <= snd v /\ fst (vmin v a) <= fst a /\ snd (vmin v a) <= snd a)%Q).
    { unfold vmin. cbn [fst snd]. destruct (Qlt_bool (fst a) (fst v)) eqn:K1, (Qlt_bool (snd a) (snd v)) eqn:K2;
      try apply Qlt_bool_iff in K1; try apply Qlt_bool_iff in K2; try apply Qlt_bool_false in K1; try apply Qlt_bool_false in K2;
      split; [|split; [|split]| |split; [|split]| |split; [|split]| |split; [|split]]; lra. }
    assert (M1 : fst (vmin v a) = fst v \/ fst (vmin v a) = fst a).
    { unfold vmin. cbn [fst]. destruct (Qlt_bool (fst a) (fst v)); auto. }
    assert (M2 : snd (vmin v a) = snd v \/ snd (vmin v a) = snd a).
    { unfold vmin. cbn [snd]. destruct (Qlt_bool (snd a) (snd v)); auto. }
    destruct (A (vmin v a) (or_introl eq_refl)) as [A1 A2].
    split; [|split].
    + intros w [<-|[<-|Hw]]; [split; lra|split; lra|]. apply A. now right.
    + destruct B1 as [<-|B1]; [destruct M1 as [M1|M1]|]; [exists v|exists a|exists w1]; cbn; split; auto; congruence.
    + destruct C1 as [<-|C1]; [destruct M2 as [M2|M2]|]; [exists v|exists a|exists w2]; cbn; split; auto; congruence.
Qed.

Lemma last_default {A} (l : list A) x d d' : last (x :: l) d = last (x :: l) d'.
Proof.
  revert x. induction l as [|y l IH]; intros x; [reflexivity|]. exact (IH y).
Qed.

Lemma last_cons {A} (l : list A) x d : last (x :: l) d = last l x.
Proof.
  destruct l as [|y l]; [reflexivity|]. change (last (x :: y :: l) d) with (last (y :: l) d). apply last_default.
Qed.

(** Left of all vertices every straddling edge is crossed, and a closed polygon
    has an even number of those. *)
Lemma parity_left p : forall vs vj, (forall w, In w (vj :: vs) -> (fst p < fst w)%Q) ->
  Nat.odd (count_crossings vj vs p) = xorb (Qlt_bool (snd p) (snd vj)) (Qlt_bool (snd p) (snd (last vs vj))).
Proof.
  induction vs as [|a t IH]; intros vj H.
  - cbn. now rewrite xorb_nilpotent.
  - cbn [count_crossings]. rewrite Nat.odd_add. rewrite IH by (intros w Hw; apply H; now right).
    assert (LA : last (a :: t) vj = last t a).
    { apply last_cons. }
    rewrite LA.
    assert (C : crosses a vj p = xorb (Qlt_bool (snd p) (snd vj)) (Qlt_bool (snd p) (snd a))).
    { destruct (xorb (Qlt_bool (snd p) (snd vj)) (Qlt_bool (snd p) (snd a))) eqn:K.
      - apply crosses_iff. split.
        + rewrite <- !Qlt_bool_iff. destruct (Qlt_bool (snd p) (snd vj)), (Qlt_bool (snd p) (snd a)); cbn in K; intuition congruence.
        + assert (D : ~ (snd vj - snd a == 0)%Q).
          { intros Z. assert (ZZ : (snd vj == snd a)%Q) by lra. rewrite ZZ in K. rewrite xorb_nilpotent in K. discriminate. }
          exists ((snd p - snd a) / (snd vj - snd a))%Q. split; [field; auto|].
          assert (Hj : (fst p < fst vj)%Q) by (apply H; now left). assert (Ha : (fst p < fst a)%Q) by (apply H; right; now left).
          set (t0 := ((snd p - snd a) / (snd vj - snd a))%Q).
          assert (T : (0 <= t0 /\ t0 <= 1)%Q).
          { unfold t0. destruct (Qlt_le_dec 0 (snd vj - snd a)) as [P|P].
            - destruct (Qlt_bool (snd p) (snd vj)) eqn:K1, (Qlt_bool (snd p) (snd a)) eqn:K2; try discriminate K;
                try apply Qlt_bool_iff in K1; try apply Qlt_bool_iff in K2; try apply Qlt_bool_false in K1; try apply Qlt_bool_false in K2.
              + split; [apply Qle_shift_div_l; lra|apply Qle_shift_div_r; lra].
              + exfalso. lra.
            - assert (P' : (0 < - (snd vj - snd a))%Q) by (apply Qnot_le_lt; intros Z; apply D; lra).
              assert (((snd p - snd a) / (snd vj - snd a) == (snd a - snd p) / (- (snd vj - snd a))))%Q as -> by (field; auto).
              destruct (Qlt_bool (snd p) (snd vj)) eqn:K1, (Qlt_bool (snd p) (snd a)) eqn:K2; try discriminate K;
                try apply Qlt_bool_iff in K1; try apply Qlt_bool_iff in K2; try apply Qlt_bool_false in K1; try apply Qlt_bool_false in K2.
              + exfalso. lra.
              + split; [apply Qle_shift_div_l; lra|apply Qle_shift_div_r; lra]. }
          clearbody t0. destruct T as [T0 T1].
          assert (U1 : (0 <= t0 * (fst vj - fst p))%Q) by (apply Qmult_le_0_compat; lra).
          assert (U2 : (0 <= (1 - t0) * (fst a - fst p))%Q) by (apply Qmult_le_0_compat; lra).
          destruct (Qlt_le_dec (1#2) t0).
          * assert (0 < (t0 - (1#2)) * (fst vj - fst p))%Q by (apply Qmult_lt_0_compat; lra). lra.
          * assert (0 <= ((1#2) - t0) * (fst a - fst p))%Q by (apply Qmult_le_0_compat; lra). lra.
      - destruct (crosses a vj p) eqn:C; auto. apply crosses_iff in C as [C _]. exfalso. apply C.
        rewrite <- !Qlt_bool_iff. destruct (Qlt_bool (snd p) (snd vj)), (Qlt_bool (snd p) (snd a)); cbn in K; intuition congruence. }
    rewrite C. destruct (Qlt_bool (snd p) (snd vj)), (Qlt_bool (snd p) (snd a)), (Qlt_bool (snd p) (snd (last t a))); reflexivity.
Qed.

Lemma count_some p : forall vs vj, (0 < count_crossings vj vs p)%nat ->
  exists a b, In a (vj :: vs) /\ In b (vj :: vs) /\ edge_crosses p (a, b).
Proof.
  induction vs as [|a t IH]; intros vj H; [cbn in H; lia|]. cbn [count_crossings] in H.
  destruct (crosses a vj p) eqn:K.
  - apply crosses_iff in K. exists a, vj. cbn. auto.
  - destruct (IH a) as (x & y & Hx & Hy & C); [lia|]. exists x, y. split; [now right|]. split; [now right|auto].
Qed.

Lemma last_In {A} (l : list A) d : In (last l d) (d :: l).
Proof.
  induction l as [|a t IH]; [now left|]. destruct t as [|b t]; [cbn; auto|].
  change (last (a :: b :: t) d) with (last (b :: t) d). destruct IH as [H|H]; [now left|right; now right].
Qed.

Lemma polygon_box vs v p : vs <> [] -> hd_error vs = Some v -> in_polygon vs p ->
  (fst (fold_left vmin vs v) <= fst p /\ fst p <= fst (fold_left vmax vs v) /\
   snd (fold_left vmin vs v) <= snd p /\ snd p <= snd (fold_left vmax vs v))%Q.
Proof.
  intros NE HD HP. apply polygon_contains_iff in HP. unfold polygon_contains in HP.
  destruct vs as [|v' t]; [contradiction|]. cbn in HD. injection HD as ->.
  set (vs := v :: t) in *. set (lst := last vs v) in *.
  assert (HL : In lst vs). { unfold lst. destruct (last_In vs v) as [H|H]; [rewrite <- H; now left|exact H]. }
  assert (HV : forall w, In w (lst :: vs) -> In w (v :: vs)). { intros w [<-|Hw]; right; auto. }
  destruct (fold_vmax vs v) as (MX & _). destruct (fold_vmin vs v) as (MN & _).
  set (mx := fold_left vmax vs v) in *. set (mn := fold_left vmin vs v) in *. clearbody mx mn.
  assert (P : (0 < count_crossings lst vs p)%nat).
  { destruct (count_crossings lst vs p); [discriminate HP|lia]. }
  destruct (count_some p vs lst P) as (a & b & Ha & Hb & S & (t0 & T1 & T2)).
  pose proof (MX _ (HV _ Ha)) as Ha1. pose proof (MN _ (HV _ Ha)) as Ha2. pose proof (MX _ (HV _ Hb)) as Hb1. pose proof (MN _ (HV _ Hb)) as Hb2.
  assert (SY : ((snd p < snd a /\ snd b <= snd p) \/ (snd p < snd b /\ snd a <= snd p))%Q).
  { destruct (Qlt_le_dec (snd p) (snd a)), (Qlt_le_dec (snd p) (snd b)); auto; exfalso; apply S; split; intros; auto; lra. }
  assert (TR : (0 <= t0 /\ t0 <= 1)%Q).
  { destruct SY as [[Y1 Y2]|[Y1 Y2]]; split; apply Qnot_lt_le; intros K; nra. }
  split; [|split; [|split]].
  - destruct (Qlt_le_dec (fst p) (fst mn)) as [K|K]; auto. exfalso.
    assert (EV : Nat.odd (count_crossings lst vs p) = false).
    { rewrite parity_left.
      - assert (LL : last vs lst = lst) by apply last_default. fold vs. unfold vec in *. rewrite LL. apply xorb_nilpotent.
      - intros w Hw. apply HV, MN in Hw. lra. }
    congruence.
  - destruct TR as [T3 T4].
    assert (U1 : (0 <= t0 * (fst mx - fst b))%Q) by (apply Qmult_le_0_compat; lra).
    assert (U2 : (0 <= (1 - t0) * (fst mx - fst a))%Q) by (apply Qmult_le_0_compat; lra). lra.
  - destruct SY; lra.
  - destruct SY; lra.
Qed.

Lemma in_polygon_veq vs p q : veq p q -> in_polygon vs p -> in_polygon vs q.
Proof.
  intros [V1 V2] (n & C & O). exists n. split; [|exact O]. 
  assert (S : forall e, edge_crosses p e <-> edge_crosses q e).
  { intros [a b]. unfold edge_crosses. rewrite V2. split; intros [K (t & T1 & T2)]; (split; [exact K|]); exists t; [rewrite <- V1, <- V2|rewrite V1, V2]; auto. }
  clear O. induction C; constructor; auto; now rewrite <- S.
Qed.

Lemma polygon_final m vs : geo_ok m -> vs <> [] ->
  (forall v, In v vs -> (border_eps (fst v) < resn m)%Q /\ (border_eps (snd v) < resn m)%Q) ->
  exists is, polygon_visits m vs = Ok is /\ NoDup is /\
    forall i, In i is <-> in_range (size m) i /\ in_polygon vs (centre m i).
Proof.
  intros G NE EP. destruct vs as [|v t]; [contradiction|]. unfold polygon_visits, polygon_window. cbn [rbind].
  destruct (fold_vmax (v :: t) v) as (MX & (a1 & A1 & A2) & (a2 & A3 & A4)).
  destruct (fold_vmin (v :: t) v) as (MN & (b1 & B1 & B2) & (b2 & B3 & B4)).
  assert (IV : forall w, In w (v :: v :: t) -> In w (v :: t)) by (intros w [<-|H]; [now left|auto]).
  assert (ON : forall i, in_range (size m) i -> exists p, getPosition m i = Some p /\ veq p (centre m i)).
  { intros i Hi. now apply (getPosition_centre X). }
  apply (box_filtered m _ _ (polygon_inside m (v :: t))
    (fun i => match getPosition m i with Some p => polygon_contains (v :: t) p | None => false end)); auto.
  - unfold eps_ok. rewrite A2, A4, B2, B4. split; [|split; [|split]]; apply EP; auto.
  - destruct (MX v); [now left|]. destruct (MN v); [now left|]. lra.
  - destruct (MX v); [now left|]. destruct (MN v); [now left|]. lra.
  - intros i Hi. unfold polygon_inside, position_or_uninit. destruct (ON i Hi) as (p & -> & _). reflexivity.
  - intros i Hi. destruct (ON i Hi) as (p & -> & V). rewrite polygon_contains_iff. split; apply in_polygon_veq; auto. now destruct V; split; symmetry.
  - intros i Hi HP. apply (polygon_box (v :: t)) with (v := v) in HP; auto.
Qed.

End Box.
