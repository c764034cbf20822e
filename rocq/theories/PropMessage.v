(** Properties C47-C49 and C60: cost map messages and the service. *)
From Coq Require Import ZArith QArith Qround Qabs Qfield String List Bool Lia Lqa.
From Coq Require Import ZifyBool.
From Verif Require Import Base Mat GridMapMath GridIter CostMap Converter Spec ConvertSpec BaseLemmas GeoLemmas CoreProofs CoreProofs2 CoreFinal FloatLemmas FloatMono MessageProofs Samples.
Import ListNotations.
Open Scope Z_scope.

Lemma cells_exact (E : Env) (X : Exact E) r x n : (0 < r)%Q -> (0 < x)%Q -> cells_for r x n -> Qround_away (fdiv x r) = n.
Proof.
  intros RP XP C. assert (0 <= x / r)%Q by (apply Qle_shift_div_l; lra).
  apply Qround_away_unique. { now rewrite (fdiv_eq X). } now rewrite (fdiv_eq X).
Qed.

Lemma len_positive m : geo_ok m -> (0 < fst (len m))%Q /\ (0 < snd (len m))%Q.
Proof.
  intros G. destruct (g_len _ G) as [A B]. cbn [fst snd] in A, B. rewrite A, B. destruct (g_size _ G).
  split; apply Qmult_lt_0_compat; try apply (g_res _ G); now apply inject_Z_pos.
Qed.

Lemma geo_cells (E : Env) (X : Exact E) m : geo_ok m -> cells_of (len m) (resn m) = size m.
Proof.
  intros G. destruct (len_positive m G) as [A B]. pose proof (g_res _ G) as RP.
  destruct (g_len _ G) as [L0 L1]. cbn [fst snd] in L0, L1. unfold cells_of.
  assert (forall x n, (x == inject_Z n * resn m)%Q -> (0 < x)%Q -> Qround_away (fdiv x (resn m)) = n) as K.
  { intros x n Hx XP. apply (cells_exact E X); auto. unfold cells_for. rewrite Hx.
    assert (inject_Z n * resn m / resn m == inject_Z n)%Q as -> by (field; lra). split; lra. }
  rewrite (K _ _ L0 A), (K _ _ L1 B). now destruct (size m).
Qed.

(** C47. *)
Theorem C47_round_trip : forall (E : Env), Exact E -> forall m,
  geo_ok m -> reg_ok' m -> stamp_ok m -> fst (start m) < 65536 -> snd (start m) < 65536 ->
  exists g m', toMessage m = Ok g /\ fromMessage g (new_map []) = Ret true m' /\ same_map m m'.
Proof.
  intros E X m G R S A B. destruct (len_positive m G) as [L0 L1].
  destruct (message_round (exact_nonneg E X) m R S L0 L1 (g_res _ G) (geo_cells E X m G))
    as (g & m' & T & F & K1 & K2 & K3 & K4 & K5 & K6 & K7 & K8 & K9 & K10).
  exists g, m'. split; auto. split; auto. unfold same_map. rewrite K6.
  destruct (g_start _ G) as [S0 S1]. rewrite K10, !Z.mod_small by lia.
  split; [exact K1|]. split; [exact K2|]. split; [exact K3|]. split; [exact K4|]. split; [exact K5|].
  split. { destruct (g_len _ G) as [Q0 Q1]. cbn [fst snd] in *. split; cbn [fst snd]; rewrite (fmul_eq X); symmetry; auto. }
  split; [exact K7|]. split; [exact K8|]. split; [exact K9|]. now destruct (start m).
Qed.
Print Assumptions C47_round_trip.

Example C47_case : geo_ok sample /\ reg_ok' sample /\ stamp_ok (set_stamp sample 1234567890123456789) /\
  match toMessage (set_stamp sample 1234567890123456789) with
  | Ok g => g_stamp g = (1234567890, 123456789) /\ g_index g = (3, 2) /\
            match fromMessage (E := exact_wrap) g (new_map []) with
            | Ret true m => (layers m, start m, at_ m "b" (4, 3)) = (["a"; "b"]%string, (3, 2), Ok 119)
            | _ => False
            end
  | _ => False
  end.
Proof.
  split; [exact sample_geo|]. split; [exact sample_reg|]. split; [unfold stamp_ok; vm_compute; split; [discriminate|reflexivity]|].
  vm_compute. auto.
Qed.

(** The same in IEEE double arithmetic, for a geometry as setGeometry leaves it:
    the cell counts are recovered although length / resolution is rounded. *)
Lemma float_cells (p : bpolicy) n r x : 1 <= n <= 2 ^ 50 -> (0 < r)%Q -> (x == rne 53 (inject_Z n * r))%Q ->
  (0 < x)%Q /\ Qround_away (fdiv (E := binary64 p) x r) = n.
Proof.
  intros Hn RP Hx. set (N := inject_Z n) in *.
  assert (N1 : (1 <= N)%Q) by (change 1%Q with (inject_Z 1); unfold N; rewrite <- Zle_Qle; lia).
  assert (N2 : (N <= inject_Z (2 ^ 50))%Q) by (unfold N; rewrite <- Zle_Qle; lia).
  assert (NR : (0 < N * r)%Q) by (apply Qmult_lt_0_compat; lra).
  pose (u := (1 # 9007199254740992)%Q).
  assert (U : (pow2 (- (53)) == u)%Q) by reflexivity.
  pose proof (rne_error 53 (N * r) ltac:(lia)) as E1. rewrite (Qabs_pos (N * r)) in E1 by lra. rewrite U, <- Hx in E1.
  apply Qabs_Qle_condition in E1 as [E1 E1'].
  assert (XL : (N * r * (1 - u) <= x)%Q) by lra. assert (XU : (x <= N * r * (1 + u))%Q) by lra.
  assert (XP : (0 < x)%Q) by (unfold u in *; lra).
  split; auto. assert (YL : (N * (1 - u) <= x / r)%Q).
  { apply Qle_shift_div_l; auto. lra. }
  assert (YU : (x / r <= N * (1 + u))%Q). { apply Qle_shift_div_r; auto. lra. }
  pose proof (rne_error 53 (x / r) ltac:(lia)) as E2.
  assert (YP : (0 <= x / r)%Q) by (unfold u in *; lra).
  rewrite (Qabs_pos (x / r)) in E2 by lra. rewrite U in E2. apply Qabs_Qle_condition in E2 as [E2 E2'].
  unfold fdiv. cbn [rnd binary64]. set (z := rne 53 (x / r)) in *. set (y := (x / r)%Q) in *. clearbody z y.
  change (inject_Z (2 ^ 50)) with (1125899906842624#1)%Q in N2. unfold u in *.
  apply Qround_away_unique; fold N; clearbody N; lra.
Qed.

Theorem C47_float : forall p m, let E := binary64 p in
  reg_ok' m -> stamp_ok m -> (0 < resn m)%Q ->
  1 <= fst (size m) <= 2 ^ 50 -> 1 <= snd (size m) <= 2 ^ 50 ->
  veq (len m) (rne 53 (inject_Z (fst (size m)) * resn m), rne 53 (inject_Z (snd (size m)) * resn m)) ->
  0 <= fst (start m) < 65536 -> 0 <= snd (start m) < 65536 ->
  exists g m', toMessage m = Ok g /\ fromMessage g (new_map []) = Ret true m' /\ same_map m m'.
Proof.
  intros p m E R S RP N0 N1 [L0 L1] A B. cbn [fst snd] in L0, L1.
  destruct (float_cells p _ _ _ N0 RP L0) as [P0 C0]. destruct (float_cells p _ _ _ N1 RP L1) as [P1 C1].
  destruct (@message_round E (rne_nonneg 53) m R S P0 P1 RP)
    as (g & m' & T & F & K1 & K2 & K3 & K4 & K5 & K6 & K7 & K8 & K9 & K10).
  { unfold cells_of. fold E in C0, C1. rewrite C0, C1. now destruct (size m). }
  exists g, m'. split; auto. split; auto. unfold same_map. rewrite K6.
  rewrite K10, !Z.mod_small by lia.
  split; [exact K1|]. split; [exact K2|]. split; [exact K3|]. split; [exact K4|]. split; [exact K5|].
  split. { split; cbn [fst snd]; symmetry; auto. }
  split; [exact K7|]. split; [exact K8|]. split; [exact K9|]. now destruct (start m).
Qed.
Print Assumptions C47_float.

(** 7 x 7 cells of 0.2 m: 1.4 / 0.2 is not 7 in double arithmetic. *)
Example C47_float_case : let r := rne 53 (2#10) in
  let m := after (setGeometry (E := binary64 BClamp) (rne 53 (14#10), rne 53 (14#10)) r (0, 0)%Q) (new_map ["a"%string]) in
  size m = (7, 7) /\ len m = (rne 53 (inject_Z 7 * r), rne 53 (inject_Z 7 * r)) /\
  Qeq_bool (fst (len m) / r) 7 = false.
Proof. conj_vm. Qed.

(** All outcomes of fromMessage for a message of n0 x n1 cells, for any rounding. *)
Lemma outcomes_any {E : Env} (RN : rnd_nonneg) g m n : reg_ok' m -> positive g -> cells_of (g_length g) (g_resn g) = n ->
   (length (g_layers g) <> length (g_data g) -> exists m', fromMessage g m = Ret false m' /\
      frame m' = g_frame g /\ stamp m' = to_nsec (g_stamp g) /\ size m' = n /\ resn m' = g_resn g /\ pos m' = g_position g /\
      start m' = (0, 0) /\ basic m' = basic m /\ layers m' = layers m /\
      (forall l, has_layer m' l <-> has_layer m l) /\
      (forall l i, has_layer m l -> in_range n i -> value_at m' l i unknown)) /\
   (length (g_layers g) = length (g_data g) ->
    let las := combine (g_layers g) (g_data g) in
    ((exists l a, In (l, a) las /\ ~ fits n a) -> exists f, fromMessage g m = Flt f) /\
    ((forall l a, In (l, a) las -> fits n a) -> exists m', fromMessage g m = Ret true m' /\ reg_ok' m' /\
      frame m' = g_frame g /\ stamp m' = to_nsec (g_stamp g) /\ size m' = n /\ resn m' = g_resn g /\ pos m' = g_position g /\
      len m' = (fmul (inject_Z (fst n)) (g_resn g), fmul (inject_Z (snd n)) (g_resn g)) /\
      start m' = g_index g /\ basic m' = g_basic g /\ layers m' = appended (layers m) (g_layers g) /\
      (forall l a, last_with l las = Some a -> forall i v, in_range n i -> (value_at m' l i v <-> array_at n a i v)) /\
      (forall l i, has_layer m l -> ~ In l (g_layers g) -> in_range n i -> value_at m' l i unknown))).
Proof.
  intros R PG N. pose proof PG as (P0 & P1 & P2).
  pose proof (cells_of_nonneg RN _ _ P0 P1 P2) as [N0 N1]. rewrite N in N0, N1.
  assert (Sz : size (blank g m) = n) by exact N.
  assert (R0 : reg_ok' (blank g m)) by (apply blank_reg; auto).
  assert (BV : forall l i, has_layer m l -> in_range n i -> value_at (blank g m) l i unknown).
  { intros l i [d Hd] Hi. exists (mconst (fst n) (snd n) NO_INFORMATION). split.
    - rewrite aget_blank, Hd, Sz. reflexivity.
    - apply mget_mconst; apply Hi. }
  split.
  - intros NE. exists (blank g m). rewrite fromMessage_unfold by auto.
    destruct (Nat.eqb_spec (length (g_layers g)) (length (g_data g))) as [e|_]; [contradiction|]. cbn [negb].
    split; [reflexivity|]. split; [reflexivity|]. split; [reflexivity|]. split; [exact Sz|]. do 5 (split; [reflexivity|]).
    split; [|exact BV]. intros l. unfold has_layer. rewrite aget_blank. destruct (aget (data m) l); cbn; split; intros [d H]; try discriminate; eauto.
  - intros EQ las. split.
    + intros BAD. rewrite fromMessage_unfold by auto. rewrite (proj2 (Nat.eqb_eq _ _) EQ). cbn [negb].
      destruct (add_arrays_bad n N0 N1 las (blank g m) Sz R0 BAD) as [f Hf]. fold las. rewrite Hf. eauto.
    + intros FIT. destruct (add_arrays n N0 N1 las (blank g m) Sz R0 FIT) as (m1 & H1 & R1 & M1 & L1 & D1).
      destruct M1 as (F1 & F2 & F3 & F4 & F5 & F6 & F7 & F8).
      exists (set_start (set_basic m1 (g_basic g)) (g_index g)).
      split. { rewrite fromMessage_unfold by auto. rewrite (proj2 (Nat.eqb_eq _ _) EQ). cbn [negb]. fold las. now rewrite H1. }
      split. { eapply reg_meta; [| | |exact R1]; reflexivity. }
      cbn [set_start set_basic frame stamp data layers basic len resn pos size start].
      split; [now rewrite <- F1|]. split; [now rewrite <- F2|]. split; [now rewrite <- F7|]. split; [now rewrite <- F5|].
      split; [now rewrite <- F6|].
      split. { rewrite <- F4. unfold blank. cbn [len]. now rewrite N. }
      split; [reflexivity|]. split; [reflexivity|].
      split. { rewrite L1. unfold las. now rewrite map_fst_combine. }
      split.
      * intros l a Ha i v Hi. unfold value_at. cbn [data set_start set_basic]. rewrite D1, Ha.
        assert (Fa : fits n a).
        { clear -Ha FIT. revert Ha FIT. induction las as [|[k b] t IH]; cbn; [discriminate|]. intros Ha FIT. destruct (last_with l t) eqn:K.
          - apply IH; auto.  intros l' a' H. apply (FIT l'). right; auto.
          - destruct (String.eqb l k); [|discriminate]. injection Ha as ->. apply (FIT k). left; auto. }
        rewrite <- (array_mat_at n a i v Hi Fa). split; [intros (d & Hd & Hv); injection Hd as <-; auto|intros Hv; eauto].
      * intros l i Hl NI Hi. destruct (BV l i Hl Hi) as (d & Hd & Hv). exists d. cbn [data set_start set_basic]. rewrite D1.
        assert (last_with l las = None) as ->.
        { clear -NI EQ. unfold las. generalize dependent (g_data g). induction (g_layers g) as [|k t IH]; intros [|a u] EQ; cbn in *; auto; try discriminate.
          rewrite IH; auto. destruct (String.eqb_spec l k); auto. subst. exfalso. apply NI. left; auto. }
        split; auto.
Qed.

(** C48: all outcomes of fromMessage, for every message and target. *)
Theorem C48_outcomes : forall (E : Env), Exact E -> forall g m, reg_ok' m ->
  (~ positive g -> fromMessage g m = Flt AssertFailed) /\
  (positive g -> forall n, cells_for (g_resn g) (fst (g_length g)) (fst n) -> cells_for (g_resn g) (snd (g_length g)) (snd n) ->
   (length (g_layers g) <> length (g_data g) -> exists m', fromMessage g m = Ret false m' /\
      frame m' = g_frame g /\ stamp m' = to_nsec (g_stamp g) /\ size m' = n /\ resn m' = g_resn g /\ pos m' = g_position g /\
      start m' = (0, 0) /\ basic m' = basic m /\ layers m' = layers m /\
      (forall l, has_layer m' l <-> has_layer m l) /\
      (forall l i, has_layer m l -> in_range n i -> value_at m' l i unknown)) /\
   (length (g_layers g) = length (g_data g) ->
    let las := combine (g_layers g) (g_data g) in
    ((exists l a, In (l, a) las /\ ~ fits n a) -> exists f, fromMessage g m = Flt f) /\
    ((forall l a, In (l, a) las -> fits n a) -> exists m', fromMessage g m = Ret true m' /\ reg_ok' m' /\
      frame m' = g_frame g /\ stamp m' = to_nsec (g_stamp g) /\ size m' = n /\ resn m' = g_resn g /\ pos m' = g_position g /\
      veq (len m') (inject_Z (fst n) * g_resn g, inject_Z (snd n) * g_resn g)%Q /\
      start m' = g_index g /\ basic m' = g_basic g /\ layers m' = appended (layers m) (g_layers g) /\
      (forall l a, last_with l las = Some a -> forall i v, in_range n i -> (value_at m' l i v <-> array_at n a i v)) /\
      (forall l i, has_layer m l -> ~ In l (g_layers g) -> in_range n i -> value_at m' l i unknown)))).
Proof.
  intros E X g m R. split; [apply fromMessage_bad|]. intros PG n C0 C1. pose proof PG as (P0 & P1 & P2).
  assert (N : cells_of (g_length g) (g_resn g) = n).
  { unfold cells_of. rewrite (cells_exact E X _ _ _ P2 P0 C0), (cells_exact E X _ _ _ P2 P1 C1). now destruct n. }
  destruct (outcomes_any (exact_nonneg E X) g m n R PG N) as [A B]. split; [exact A|]. intros LE las. destruct (B LE) as [B1 B2].
  split; [exact B1|]. intros FT. destruct (B2 FT) as (m' & K1 & K2 & K3 & K4 & K5 & K6 & K7 & K8 & K9).
  exists m'. split; [exact K1|]. split; [exact K2|]. split; [exact K3|]. split; [exact K4|]. split; [exact K5|]. split; [exact K6|]. split; [exact K7|].
  split; [|exact K9]. rewrite K8. split; apply (fmul_eq X).
Qed.
Print Assumptions C48_outcomes.

(** A message with one array too few, and one without layer b, into the sample. *)
Example C48_case :
  let full := match toMessage sample with Ok g => g | _ => Msg (0,0) "" 0 (0,0)%Q (0,0)%Q [] [] [] (0,0) end in
  let short := Msg (g_stamp full) "w" 1 (2, 3)%Q (7, 8)%Q (g_layers full) [] (firstn 1 (g_data full)) (0, 0) in
  let one := Msg (g_stamp full) "w" (g_resn full) (g_length full) (7, 8)%Q ["a"%string] [] (firstn 1 (g_data full)) (3, 2) in
  positive short /\ cells_for (g_resn short) 2 2 /\ cells_for (g_resn short) 3 3 /\
  match fromMessage (E := exact_wrap) short sample with
  | Ret b m => (b, size m, layers m, at_ m "b" (1, 2), frame m) = (false, (2, 3), ["a"; "b"]%string, Ok 255, "w"%string)
  | _ => False
  end /\
  match fromMessage (E := exact_wrap) one sample with
  | Ret b m => (b, layers m, at_ m "a" (1, 2), at_ m "b" (1, 2)) = (true, ["a"; "b"]%string, Ok 7, Ok 255)
  | _ => False
  end.
Proof. cbv zeta. split; [repeat split|]. split; [split; [discriminate|reflexivity]|]. split; [split; [discriminate|reflexivity]|]. conj_vm. Qed.

(** C49: beyond 65535 the start index comes back modulo 65536, all else the same,
    and every cell is then somewhere else in the world. *)
Theorem C49_truncated : forall (E : Env), Exact E -> forall m,
  geo_ok m -> reg_ok' m -> stamp_ok m ->
  exists g m', toMessage m = Ok g /\ fromMessage g (new_map []) = Ret true m' /\
    same_map (set_start m (fst (start m) mod 65536, snd (start m) mod 65536)) m' /\
    (65536 <= fst (start m) \/ 65536 <= snd (start m) -> forall i, in_range (size m) i -> world_index m' i <> world_index m i).
Proof.
  intros E X m G R S. destruct (len_positive m G) as [L0 L1].
  destruct (message_round (exact_nonneg E X) m R S L0 L1 (g_res _ G) (geo_cells E X m G))
    as (g & m' & T & F & K1 & K2 & K3 & K4 & K5 & K6 & K7 & K8 & K9 & K10).
  exists g, m'. split; auto. split; auto. split.
  - unfold same_map. cbn [set_start frame stamp data layers basic len resn pos size start]. rewrite K6.
    split; [exact K1|]. split; [exact K2|]. split; [exact K3|]. split; [exact K4|]. split; [exact K5|].
    split. { destruct (g_len _ G) as [Q0 Q1]. cbn [fst snd] in *. split; cbn [fst snd]; rewrite (fmul_eq X); symmetry; auto. }
    split; [exact K7|]. split; [exact K8|]. split; [exact K9|]. exact K10.
  - intros BIG i [I0 I1] EQ. destruct (g_start _ G) as [S0 S1]. unfold world_index in EQ. rewrite K9, K10 in EQ. cbn [fst snd] in EQ.
    injection EQ as Q0 Q1.
    assert (C : forall i s n, 0 <= i < n -> 65536 <= s < n -> (i - s mod 65536) mod n = (i - s) mod n -> False).
    { clear. intros i s n Hi Hs Q. pose proof (Z.mod_pos_bound s 65536 ltac:(lia)) as B. pose proof (Z.div_mod s 65536 ltac:(lia)) as D.
      assert (1 <= s / 65536) by (apply Z.div_le_lower_bound; lia).
      assert (ST : 0 < s - s mod 65536 < n) by lia.
      set (t := s mod 65536) in *. clearbody t. clear D H B. 
      pose proof (Z.div_mod (i - t) n ltac:(lia)) as A1. pose proof (Z.div_mod (i - s) n ltac:(lia)) as A2. rewrite Q in A1.
      assert (s - t = n * ((i - t) / n - (i - s) / n)) by lia.
      set (q := (i - t) / n - (i - s) / n) in *. clearbody q. rewrite H in ST. clear -ST. assert (q <= 0 \/ 1 <= q) as [?|?] by lia; nia. }
    destruct BIG; [eapply C; [| |exact Q0]|eapply C; [| |exact Q1]]; lia.
Qed.
Print Assumptions C49_truncated.

(** 65537 x 1 cells, start index 65536, cost 7 in that cell and 0 elsewhere. *)
Definition long_map : cmap :=
  CMap "w" 0 [("a"%string, mbuild 65537 1 (fun i _ => if i =? 65536 then 7 else 0))] ["a"%string] []
       (65537, 1)%Q 1%Q (0, 0)%Q (65537, 1) (65536, 0).

Definition returned (m : cmap) : option cmap :=
  match toMessage m with
  | Ok g => match fromMessage (E := exact_wrap) g (new_map []) with Ret true m' => Some m' | _ => None end
  | _ => None
  end.

(** The cost at the +x end of the map is 7 before and 0 after the round trip. *)
Theorem C49_moved_refuted : exists m m' p, geo_ok m /\ reg_ok' m /\ stamp_ok m /\ returned m = Some m' /\
  start m' <> start m /\ atPosition (E := exact_wrap) m "a" p = Ok 7 /\ atPosition (E := exact_wrap) m' "a" p = Ok 0.
Proof.
  assert (K : match returned long_map with Some m' => start m' = (0, 0) /\ atPosition (E := exact_wrap) m' "a" (32768, 0)%Q = Ok 0 | None => False end)
    by (vm_compute; auto).
  exists long_map. destruct (returned long_map) as [m'|]; [|contradiction]. destruct K as [K1 K2].
  exists m', (32768, 0)%Q. split; [apply geo_okb_ok; vm_compute; reflexivity|]. split; [apply reg_okb_ok; vm_compute; reflexivity|].
  split; [unfold stamp_ok; cbn; lia|]. split; [reflexivity|].
  split; [rewrite K1; discriminate|]. split; [vm_compute; reflexivity|exact K2].
Qed.
Print Assumptions C49_moved_refuted.

(** C60: the callback never reports failure. *)
Theorem C60_always_true : forall convert l b g, service_callback convert l = Ok (b, g) -> b = true.
Proof.
  intros convert l b g. unfold service_callback. destruct (convert l (new_map [])) as [a m|e m|f]; try discriminate.
  destruct (toMessage m); cbn; [|discriminate|discriminate]. congruence.
Qed.
Print Assumptions C60_always_true.

(** A conversion that failed before touching the map: the response has no
    extent, and no receiver survives reading it. *)
Theorem C60_failed : forall (E : Env) convert l, convert l (new_map []) = Ret false (new_map []) ->
  exists g, service_callback convert l = Ok (true, g) /\ g_layers g = [] /\ (g_resn g == 0)%Q /\
    forall m, fromMessage g m = Flt AssertFailed.
Proof.
  intros E convert l H. unfold service_callback. rewrite H. eexists. split; [reflexivity|]. split; [reflexivity|]. split; [reflexivity|].
  intros m. apply fromMessage_bad. intros (K & _). discriminate K.
Qed.
Print Assumptions C60_failed.

(** A conversion that fails half way reports success with the half-built map. *)
Example C60_case : exists m g, service_callback
    (fun l => bind (setGeometry (E := exact_wrap) l (1#2) (1, 1)%Q) (fun _ => ret false)) (2, 1)%Q = Ok (true, g) /\
  fromMessage (E := exact_wrap) g (new_map []) = Ret true m /\ size m = (4, 2) /\ layers m = [].
Proof. eexists. eexists. split; [vm_compute; reflexivity|]. split; [vm_compute; reflexivity|]. conj_vm. Qed.
