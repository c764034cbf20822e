(** Double arithmetic for the conversions: more of C48-C50, C52, C59, C63, C65. *)
From Coq Require Import ZArith QArith Qround Qabs Qfield String List Bool Lia Lqa.
From Coq Require Import ZifyBool.
From Verif Require Import Base Mat GridMapMath GridIter CostMap Inflation Converter Bundles BaseLemmas Spec ConvertSpec DoubleSpec GeoLemmas CoreProofs CoreProofs2 CoreFinal FloatLemmas MessageProofs PropMessage PropGrid PropBundle PropInflate PropRos DoubleGeo DoubleMap PropDouble Samples.
Import ListNotations.
Open Scope Z_scope.

(** A length of n cells, give or take less than half a cell. *)
Definition about (r x : Q) (n : Z) : Prop := (Qabs (x - inject_Z n * r) <= (49#100) * r)%Q /\ 1 <= n <= 2 ^ 22.

(** A length of n cells with the error of one rounding. *)
Definition rounded (r x : Q) (n : Z) : Prop := (Qabs (x - inject_Z n * r) <= ulp * (inject_Z n * r))%Q.

Lemma about_count (E : Env) (N : Near E) r n x : (0 < r)%Q -> about r x n -> (0 < x)%Q /\ Qround_away (fdiv x r) = n.
Proof.
  intros RP [A Hn]. apply Qabs_Qle_condition in A as [A A'].
  assert (N1 : (1 <= inject_Z n)%Q) by (change 1%Q with (inject_Z 1); rewrite <- Zle_Qle; lia).
  assert (N2 : (inject_Z n <= 4194304)%Q) by (change 4194304%Q with (inject_Z (2 ^ 22)); rewrite <- Zle_Qle; lia).
  assert (NR : (1 * r <= inject_Z n * r)%Q) by (apply Qmult_le_compat_r; lra).
  split; [lra|].
  assert (YL : (inject_Z n - (49#100) <= x / r)%Q). { apply Qle_shift_div_l; auto. lra. }
  assert (YU : (x / r <= inject_Z n + (49#100))%Q). { apply Qle_shift_div_r; auto. lra. }
  unfold fdiv. set (y := (x / r)%Q) in *. clearbody y. pose proof (N y) as K. rewrite (Qabs_pos y) in K by lra.
  apply Qabs_Qle_condition in K as [K1 K2]. unfold ulp in *. set (z := rnd y) in *. clearbody z.
  apply Qround_away_unique; lra.
Qed.

Lemma rounded_fmul (E : Env) (N : Near E) r n : (0 < r)%Q -> 0 <= n -> rounded r (fmul (inject_Z n) r) n.
Proof.
  intros RP Hn. unfold rounded, fmul. pose proof (N (inject_Z n * r)%Q) as K. rewrite (Qabs_pos (inject_Z n * r)) in K; auto.
  apply Qmult_le_0_compat; [|lra]. change 0%Q with (inject_Z 0). rewrite <- Zle_Qle. lia.
Qed.

(** ** C48 *)
Theorem C48_double : forall (E : Env), real_or_double E -> forall g m n, reg_ok' m ->
  (0 < g_resn g)%Q -> about (g_resn g) (fst (g_length g)) (fst n) -> about (g_resn g) (snd (g_length g)) (snd n) ->
   (List.length (g_layers g) <> List.length (g_data g) -> exists m', fromMessage g m = Ret false m' /\
      frame m' = g_frame g /\ stamp m' = to_nsec (g_stamp g) /\ size m' = n /\ resn m' = g_resn g /\ pos m' = g_position g /\
      start m' = (0, 0) /\ basic m' = basic m /\ layers m' = layers m /\
      (forall l, has_layer m' l <-> has_layer m l) /\
      (forall l i, has_layer m l -> in_range n i -> value_at m' l i unknown)) /\
   (List.length (g_layers g) = List.length (g_data g) ->
    let las := List.combine (g_layers g) (g_data g) in
    ((exists l a, In (l, a) las /\ ~ fits n a) -> exists f, fromMessage g m = Flt f) /\
    ((forall l a, In (l, a) las -> fits n a) -> exists m', fromMessage g m = Ret true m' /\ reg_ok' m' /\
      frame m' = g_frame g /\ stamp m' = to_nsec (g_stamp g) /\ size m' = n /\ resn m' = g_resn g /\ pos m' = g_position g /\
      rounded (g_resn g) (fst (len m')) (fst n) /\ rounded (g_resn g) (snd (len m')) (snd n) /\
      start m' = g_index g /\ basic m' = g_basic g /\ layers m' = appended (layers m) (g_layers g) /\
      (forall l a, last_with l las = Some a -> forall i v, in_range n i -> (value_at m' l i v <-> array_at n a i v)) /\
      (forall l i, has_layer m l -> ~ In l (g_layers g) -> in_range n i -> value_at m' l i unknown))).
Proof.
  intros E X g m n R RP A0 A1. pose proof (near_real E X) as NR.
  destruct (about_count E NR _ _ _ RP A0) as [P0 C0]. destruct (about_count E NR _ _ _ RP A1) as [P1 C1].
  assert (N : cells_of (g_length g) (g_resn g) = n) by (unfold cells_of; rewrite C0, C1; now destruct n).
  destruct (outcomes_any (rod_nonneg E X) g m n R (conj P0 (conj P1 RP)) N) as [A B]. split; [exact A|]. intros LE las. destruct (B LE) as [B1 B2].
  split; [exact B1|]. intros FT. destruct (B2 FT) as (m' & K1 & K2 & K3 & K4 & K5 & K6 & K7 & K8 & K9).
  exists m'. split; [exact K1|]. split; [exact K2|]. split; [exact K3|]. split; [exact K4|]. split; [exact K5|]. split; [exact K6|]. split; [exact K7|].
  rewrite K8. cbn [fst snd]. destruct A0 as [_ A0], A1 as [_ A1]. split; [apply rounded_fmul; auto; lia|]. split; [apply rounded_fmul; auto; lia|]. exact K9.
Qed.
Print Assumptions C48_double.

(** A message of 7 x 3 cells of 20 cm, lengths 1.4 and 0.6 typed in. *)
Example C48_double_case : let r := rne 53 (2#10) in about r (rne 53 (14#10)) 7 /\ about r (rne 53 (6#10)) 3 /\
  match fromMessage (E := binary64 BClamp) (Msg (1, 5) "w" r (rne 53 (14#10), rne 53 (6#10)) (1, 1)%Q [] [] [] (4, 2)) sample with
  | Ret true m => size m = (7, 3) /\ start m = (4, 2) /\ stamp m = 1000000005 /\ at_ m "b" (6, 2) = Ok 255 | _ => False end.
Proof. cbv zeta. split; [split; [vm_compute; discriminate|lia]|]. split; [split; [vm_compute; discriminate|lia]|]. conj_vm. Qed.

(** ** C49 *)
Theorem C49_double : forall (E : Env), real_or_double E -> forall m, sized E m -> reg_ok' m -> stamp_ok m ->
  exists g m', toMessage m = Ok g /\ fromMessage g (new_map []) = Ret true m' /\
    same_map (set_start m (fst (start m) mod 65536, snd (start m) mod 65536)) m'.
Proof.
  intros E X m (RP & N0 & N1 & IR & L0 & L1) R S. cbn [fst snd] in L0, L1.
  destruct (double_count E X _ _ _ RP N0 L0) as [P0 C0]. destruct (double_count E X _ _ _ RP N1 L1) as [P1 C1].
  destruct (message_round (rod_nonneg E X) m R S P0 P1 RP)
    as (g & m' & T & F & K1 & K2 & K3 & K4 & K5 & K6 & K7 & K8 & K9 & K10).
  { unfold cells_of. rewrite C0, C1. now destruct (size m). }
  exists g, m'. split; auto. split; auto.
  unfold same_map. cbn [set_start frame stamp data layers basic len resn pos size start]. rewrite K6.
  split; [exact K1|]. split; [exact K2|]. split; [exact K3|]. split; [exact K4|]. split; [exact K5|].
  split. { split; cbn [fst snd]; symmetry; assumption. } split; [exact K7|]. split; [exact K8|]. split; [exact K9|exact K10].
Qed.
Print Assumptions C49_double.

(** ** C50 *)
Theorem C50_double : forall (E : Env), real_or_double E -> forall m g0, sized E m -> bytes m -> reg_ok' m ->
  (forall l, In l (m_layers g0) <-> In l (akeys (m_data g0))) ->
  exists g, toGridMap m g0 = Ret tt g /\
    m_frame g = frame m /\ m_stamp g = stamp m /\ veq (m_len g) (len m) /\ m_resn g = resn m /\ m_pos g = pos m /\
    m_size g = size m /\ m_start g = (0, 0) /\ m_layers g = appended (m_layers g0) (layers m) /\
    (forall l i v, in_range (size m) i -> value_at m l i v -> exists q, grid_at g l i = Some (Some q) /\ (q == percent v)%Q) /\
    (forall l i, In l (m_layers g0) -> ~ has_layer m l -> in_range (size m) i -> grid_at g l i = Some None) /\
    (start m = (0, 0) -> forall i, in_range (size m) i -> veq (grid_centre g i) (centre m i)).
Proof.
  intros E X m g0 (RP & N0 & N1 & IR & L0 & L1) BY R. cbn [fst snd] in L0, L1.
  destruct (double_count E X _ _ _ RP N0 L0) as [P0 C0]. destruct (double_count E X _ _ _ RP N1 L1) as [P1 C1].
  apply (@copy_any E); auto. { unfold cells_of. rewrite C0, C1. now destruct (size m). }
  intros l i v H. destruct X as [X|[p ->]]; [apply (grid_value_exact E X)|apply grid_value_float, (BY l i v H)].
Qed.
Print Assumptions C50_double.

(** ** C52 *)
Theorem C52_double : forall (E : Env), real_or_double E -> forall W m l old,
  dgeo W m -> reg_ok m -> stamp_ok m -> start m = (0, 0) -> has_layer m l -> bytes m ->
  exists o, toOccupancyGrid m l old = Ok o /\
    o_frame o = frame m /\ to_nsec (o_stamp o) = stamp m /\ o_width o = fst (size m) /\ o_height o = snd (size m) /\
    close (blur W m) (o_origin o) (lower m) /\ Z.of_nat (List.length (o_data o)) = o_width o * o_height o /\
    (forall i v, in_range (size m) i -> value_at m l i v ->
       exists x y c, occ_centre o (resn m) x y c /\ close (blur W m) c (centre m i) /\ occ_at o x y = Some (occupancy v)) /\
    (forall x y, 0 <= x < o_width o -> 0 <= y < o_height o ->
       exists i c, in_range (size m) i /\ occ_centre o (resn m) x y c /\ close (blur W m) c (centre m i)).
Proof.
  intros E X W m l old G R S ST HL BV. pose proof (near_real E X) as N. destruct (occ_run m l old (d_start _ _ G) R S HL) as (d & F & L & V).
  eexists. split; [exact F|]. cbn [o_frame o_stamp o_width o_height o_origin o_data].
  destruct (d_size _ _ G) as [N0 N1]. pose proof (d_res _ _ G) as RP. pose proof (d_len0 _ _ G) as L0. pose proof (d_len1 _ _ G) as L1.
  pose proof (d_far0 _ _ G) as F0. pose proof (d_far1 _ _ G) as F1.
  split; [reflexivity|]. split. { unfold to_nsec. cbn [fst snd]. rewrite (Z.div_mod (stamp m) 1000000000) at 3 by lia. ring. }
  split; [reflexivity|]. split; [reflexivity|].
  assert (AX : forall a n ln, 0 < n -> (Qabs (ln - inject_Z n * resn m) <= ulp * (inject_Z n * resn m))%Q ->
    (Qabs a + inject_Z n * resn m <= inject_Z W * resn m)%Q -> let o := fsub a (fmul (1#2) ln) in
    (Qabs (o - (a - ln / 2)) <= blur W m)%Q /\
    forall k, (Qabs (o + (inject_Z (n - 1 - k) + (1#2)) * resn m - centre1 ln a (resn m) k) <= blur W m)%Q).
  { intros a n ln Hn HL0 HF o. set (A := (inject_Z n * resn m)%Q) in *.
    assert (AP : (0 < A)%Q). { apply Qmult_lt_0_compat; auto. change 0%Q with (inject_Z 0). now rewrite <- Zlt_Qlt. }
    assert (EB : (blur W m == 16 * ulp * (inject_Z W * resn m))%Q) by (unfold blur; ring). rewrite EB.
    set (B := (inject_Z W * resn m)%Q) in *. clearbody B.
    apply Qabs_Qle_condition in HL0 as [HL0 HL0']. assert (LP : (0 <= ln)%Q) by (unfold ulp in HL0; lra).
    pose proof (N ((1#2) * ln)%Q) as K2. change (rnd ((1#2) * ln)) with (fmul (1#2) ln) in K2. rewrite (Qabs_pos ((1#2) * ln)) in K2 by lra.
    apply Qabs_Qle_condition in K2 as [K2 K2']. subst o. set (h := fmul (1#2) ln) in *. clearbody h.
    pose proof (N (a - h)%Q) as K3. change (rnd (a - h)) with (fsub a h) in K3. set (o := fsub a h) in *. clearbody o.
    pose proof (Qabs_triangle a (- h)) as T. assert (HP : (0 <= h)%Q) by (unfold ulp in K2; lra). rewrite Qabs_opp, (Qabs_pos h) in T by auto.
    change (a + - h)%Q with (a - h)%Q in T. pose proof (Qabs_nonneg a) as AN. set (y := Qabs (a - h)) in *. set (z := Qabs a) in *. clearbody y z.
    apply Qabs_Qle_condition in K3 as [K3 K3']. assert (EH : (ln / 2 == (1#2) * ln)%Q) by field.
    split.
    - rewrite EH. apply Qabs_Qle_condition. unfold ulp in *. split; lra.
    - intros k. assert (C : (o + (inject_Z (n - 1 - k) + (1#2)) * resn m - centre1 ln a (resn m) k == o - (a - (1#2) * ln) + (A - ln))%Q).
      { unfold centre1, A. replace (n - 1 - k) with (n + - k + -1) by ring. rewrite !inject_Z_plus, inject_Z_opp. change (inject_Z (-1)) with (-1)%Q. field. }
      rewrite C. apply Qabs_Qle_condition. unfold ulp in *. split; lra. }
  destruct (AX _ _ _ N0 L0 F0) as [O0 C0]. destruct (AX _ _ _ N1 L1 F1) as [O1 C1]. clear AX.
  split. { split; unfold lower; cbn [fst snd]; assumption. } split; [exact L|].
  set (o := Occ _ _ _ _ _ _ _).
  assert (OC : forall i, in_range (size m) i -> exists c, occ_centre o (resn m) (fst (size m) - 1 - fst i) (snd (size m) - 1 - snd i) c /\ close (blur W m) c (centre m i)).
  { intros i [I0 I1]. eexists (_, _). split; [split; cbn [fst snd]; reflexivity|].
    unfold centre, world_index. rewrite ST. cbn [fst snd]. rewrite !Z.sub_0_r, !Z.mod_small by lia.
    split; cbn [fst snd]; [apply C0|apply C1]. }
  split.
  - intros i v Hi Hv. destruct (OC i Hi) as (c & K1 & K2). exists (fst (size m) - 1 - fst i), (snd (size m) - 1 - snd i), c. split; [exact K1|]. split; [exact K2|].
    pose proof Hi as [I0 I1]. unfold occ_at, o. cbn [o_width o_height o_data].
    match goal with |- (if ?b then _ else _) = _ => replace b with true by (symmetry; lia) end.
    replace (fst (size m) - 1 - fst i + (snd (size m) - 1 - snd i) * fst (size m)) with (slot (size m) i)
      by (unfold slot, linear_index; ring).
    rewrite (V i v Hi Hv). now rewrite C51_values by (eapply BV; eauto).
  - intros x y Hx Hy.
    assert (Hi : in_range (size m) (fst (size m) - 1 - x, snd (size m) - 1 - y)) by (split; cbn [fst snd]; lia).
    destruct (OC _ Hi) as (c & K1 & K2). cbn [fst snd] in K1.
    replace (fst (size m) - 1 - (fst (size m) - 1 - x)) with x in K1 by ring.
    replace (snd (size m) - 1 - (snd (size m) - 1 - y)) with y in K1 by ring. eauto.
Qed.
Print Assumptions C52_double.

(** ** C59 and C65 *)

(** Origin of a grid and corner of the described rectangle, up to rounding. *)
Definition near_corner (g : msg) (p : Q) (n : Z) (o : Q) : Prop :=
  (Qabs (o - (p - inject_Z n * g_resn g / 2)) <= 4 * ulp * (Qabs p + inject_Z n * g_resn g))%Q.

Definition shows_nearly (n : idx) (g : msg) (l : string) (o : occ) : Prop :=
  presents n g l o /\ near_corner g (fst (g_position g)) (fst n) (fst (o_origin o)) /\
  near_corner g (snd (g_position g)) (snd n) (snd (o_origin o)).

(** A message of about n0 x n1 cells. *)
Definition proper_nearly (n : idx) (g : msg) : Prop :=
  (0 < g_resn g)%Q /\ about (g_resn g) (fst (g_length g)) (fst n) /\ about (g_resn g) (snd (g_length g)) (snd n) /\ carries n g.

Lemma nearly_map (E : Env) (X : real_or_double E) n g : proper_nearly n g -> converted (shows_nearly n g) g.
Proof.
  intros (RP & A0 & A1 & CA). pose proof (near_real E X) as NR.
  destruct (about_count E NR _ _ _ RP A0) as [P0 C0]. destruct (about_count E NR _ _ _ RP A1) as [P1 C1].
  assert (N : cells_of (g_length g) (g_resn g) = n) by (unfold cells_of; rewrite C0, C1; now destruct n).
  destruct (proper_any (rod_nonneg E X) n g (conj P0 (conj P1 RP)) N CA) as (m & F & R & S & SZ & G & L & OC). exists m.
  split; auto. split; auto. split; auto. split; auto. split; auto. intros l old Hl. destruct (OC l old Hl) as (o & O & PR & OO).
  exists o. split; auto. split; auto.
  assert (AX : forall p k, 1 <= k -> near_corner g p k (fsub p (fmul (1#2) (fmul (inject_Z k) (g_resn g))))).
  { intros p k Hk. unfold near_corner. set (A := (inject_Z k * g_resn g)%Q).
    assert (AP : (0 < A)%Q). { apply Qmult_lt_0_compat; auto. change 0%Q with (inject_Z 0). rewrite <- Zlt_Qlt. lia. }
    pose proof (NR A) as K1. change (rnd A) with (fmul (inject_Z k) (g_resn g)) in K1. rewrite (Qabs_pos A) in K1 by lra.
    set (ln := fmul (inject_Z k) (g_resn g)) in *. clearbody ln A. apply Qabs_Qle_condition in K1 as [K1 K1'].
    assert (LP : (0 <= ln)%Q) by (unfold ulp in K1; lra).
    pose proof (NR ((1#2) * ln)%Q) as K2. change (rnd ((1#2) * ln)) with (fmul (1#2) ln) in K2. rewrite (Qabs_pos ((1#2) * ln)) in K2 by lra.
    apply Qabs_Qle_condition in K2 as [K2 K2']. set (h := fmul (1#2) ln) in *. clearbody h.
    pose proof (NR (p - h)%Q) as K3. change (rnd (p - h)) with (fsub p h) in K3. set (o' := fsub p h) in *. clearbody o'.
    pose proof (Qabs_triangle p (- h)) as T. assert (HP : (0 <= h)%Q) by (unfold ulp in K2; lra). rewrite Qabs_opp, (Qabs_pos h) in T by auto.
    change (p + - h)%Q with (p - h)%Q in T. pose proof (Qabs_nonneg p) as AN. set (y := Qabs (p - h)) in *. set (z := Qabs p) in *. clearbody y z.
    apply Qabs_Qle_condition in K3 as [K3 K3']. assert (EH : (A / 2 == (1#2) * A)%Q) by field. rewrite EH.
    apply Qabs_Qle_condition. unfold ulp in *. split; lra. }
  rewrite OO. cbn [fst snd]. destruct A0 as [_ A0], A1 as [_ A1]. split; apply AX; lia.
Qed.

Theorem C59_double : forall (E : Env), real_or_double E -> forall ngs r,
  Forall (fun ng => proper_nearly (fst ng) (snd ng)) ngs -> r_advertised r = r_publishers r ->
  exists r' news, mfor (map snd ngs) relay_callback r = Ret tt r' /\
    r_advertised r' = r_publishers r' /\
    r_publishers r' = appended (r_publishers r) (flat_map (fun ng => g_layers (snd ng)) ngs) /\
    r_published r' = r_published r ++ news /\
    Forall2 (fun ngl lo => fst lo = snd ngl /\ shows_nearly (fst (fst ngl)) (snd (fst ngl)) (snd ngl) (snd lo))
      (flat_map (fun ng => map (pair ng) (g_layers (snd ng))) ngs) news.
Proof.
  intros E X ngs r HP. apply published_any. revert HP. apply Forall_impl. intros [n g]. apply (nearly_map E X).
Qed.
Print Assumptions C59_double.

Theorem C59_double_malformed : forall (E : Env), real_or_double E -> forall n g r l ls, (0 < g_resn g)%Q ->
  about (g_resn g) (fst (g_length g)) (fst n) -> about (g_resn g) (snd (g_length g)) (snd n) ->
  0 <= to_nsec (g_stamp g) < 4294967296 * 1000000000 ->
  List.length (g_layers g) <> List.length (g_data g) -> g_layers g = l :: ls ->
  exists r', relay_callback g r = Exn OutOfRange r' /\ r_published r' = r_published r /\ r_publishers r' = appended (r_publishers r) [l].
Proof.
  intros E X n g r l ls RP A0 A1. pose proof (near_real E X) as NR.
  destruct (about_count E NR _ _ _ RP A0) as [P0 C0]. destruct (about_count E NR _ _ _ RP A1) as [P1 C1].
  apply (malformed_any (rod_nonneg E X) n); auto.
  - repeat split; auto.
  - unfold cells_of; rewrite C0, C1; now destruct n.
  - destruct A0; lia.
  - destruct A1; lia.
Qed.
Print Assumptions C59_double_malformed.

Theorem C65_double : forall (E : Env), real_or_double E -> forall n g s, proper_nearly n g ->
  let names := appended [] (g_layers g) in
  let chosen := match names with [x] => x | _ => v_layer s end in
  (In chosen names -> exists o, srelay_turn (Some g) s = Ret tt (SRelay chosen (v_published s ++ [o])) /\ shows_nearly n g chosen o) /\
  (~ In chosen names -> srelay_turn (Some g) s = Exn OutOfRange (SRelay chosen (v_published s))).
Proof. intros E X n g s P. apply (turn_any (shows_nearly n g)), (nearly_map E X), P. Qed.
Print Assumptions C65_double.

(** 3 x 1 cells of 20 cm at (0.1, 0.1): one layer, published by both relays. *)
Definition slim : msg :=
  Msg (1, 5) "w" (rne 53 (2#10)) (rne 53 (6#10), rne 53 (2#10)) (rne 53 (1#10), rne 53 (1#10)) ["a"%string] []
      [MArray [("column_index"%string, 1); ("row_index"%string, 3)] [0; 254; 255]] (0, 0).

Example C59_double_case : proper_nearly (3, 1) slim /\
  match relay_callback (E := binary64 BClamp) slim (Relay [] [] []) with
  | Ret _ r => match r_published r with [(l, o)] => l = "a"%string /\ o_data o = [-1; 100; 0] /\ Qeq_bool (fst (o_origin o)) (- (2#10)) = false | _ => False end
  | _ => False
  end.
Proof.
  split; [|conj_vm]. split; [vm_compute; reflexivity|]. split; [split; [vm_compute; discriminate|cbn; lia]|].
  split; [split; [vm_compute; discriminate|cbn; lia]|].
  split; [reflexivity|]. split; [|split; [split; cbn; lia|cbn; lia]].
  intros a [<-|[]]. split.
  - eexists _, _, _. split; [reflexivity|]. left. split; [discriminate|]. split; [reflexivity|]. split; [reflexivity|]. vm_compute. discriminate.
  - cbn. intros v [<-|[<-|[<-|[]]]]; lia.
Qed.

Example C65_double_case : match srelay_turn (E := binary64 BClamp) (Some slim) (SRelay "none" []) with
  | Ret _ s => v_layer s = "a"%string /\ map o_data (v_published s) = [[-1; 100; 0]] | _ => False end.
Proof. conj_vm. Qed.

(** ** C63 *)

(** The radius in cells covers the radius in metres up to rounding, and the
    radius without its last ring of cells does not. *)
Theorem C63_double : forall (E : Env), real_or_double E -> forall rad m, (0 < resn m)%Q -> (0 <= rad <= inject_Z (2 ^ 31) * resn m)%Q ->
  exists r, cell_radius rad m = Ok r /\ 0 <= r /\
    ((1 - ulp) * rad <= inject_Z r * resn m)%Q /\ (0 < r -> (inject_Z (r - 1) * resn m < (1 + ulp) * rad)%Q).
Proof.
  intros E X rad m RP [HR HB]. pose proof (near_real E X) as N. unfold cell_radius.
  destruct (Qeq_bool (resn m) 0) eqn:Z0; [apply Qeq_bool_iff in Z0; lra|]. clear Z0.
  assert (Q0 : (0 <= rad / resn m)%Q) by (apply Qle_shift_div_l; lra).
  assert (Q1 : (rad / resn m <= inject_Z (2 ^ 31))%Q) by (apply Qle_shift_div_r; auto).
  assert (RE : (rad == rad / resn m * resn m)%Q) by (field; lra).
  unfold fdiv. set (q := (rad / resn m)%Q) in *. clearbody q. pose proof (N q) as K. rewrite (Qabs_pos q) in K by auto.
  apply Qabs_Qle_condition in K as [K1 K2]. set (z := rnd q) in *. clearbody z.
  pose proof (Qle_ceiling z) as C1. pose proof (Qceiling_lt z) as C2. set (k := Qceiling z) in *. clearbody k.
  assert (KB : k - 1 < 2 ^ 32). { rewrite Zlt_Qlt. change (inject_Z (2 ^ 31)) with 2147483648%Q in Q1. change (inject_Z (2 ^ 32)) with 4294967296%Q. unfold ulp in *. lra. }
  assert (KC : k <= 2 ^ 31 + 2). { enough (k - 1 < 2 ^ 31 + 2) by lia. rewrite Zlt_Qlt. change (inject_Z (2 ^ 31)) with 2147483648%Q in Q1. change (inject_Z (2 ^ 31 + 2)) with 2147483650%Q. unfold ulp in *. lra. }
  destruct (Z.leb_spec (2 ^ 32) (Z.max 0 k)); [lia|]. eexists. split; [reflexivity|]. split; [lia|]. rewrite RE.
  split.
  - assert (KQ : ((1 - ulp) * q <= inject_Z (Z.max 0 k))%Q).
    { apply Qle_trans with (inject_Z k); [unfold ulp in *; lra|]. rewrite <- Zle_Qle. lia. }
    setoid_replace ((1 - ulp) * (q * resn m))%Q with ((1 - ulp) * q * resn m)%Q by ring. apply Qmult_le_compat_r; lra.
  - intros KP. rewrite Z.max_r by lia.
    setoid_replace ((1 + ulp) * (q * resn m))%Q with ((1 + ulp) * q * resn m)%Q by ring. apply Qmult_lt_compat_r; auto. unfold ulp in *. lra.
Qed.
Print Assumptions C63_double.

Example C63_double_case : cell_radius (E := binary64 BWrap) (rne 53 (3#10)) (set_geo (new_map []) (1, 1)%Q (rne 53 (1#10)) (0, 0)%Q (0, 0)) = Ok 3.
Proof. vm_compute. reflexivity. Qed.

(** The map of that message, back as a message, a GridMap and an occupancy grid. *)
Definition slim_map : cmap := Eval vm_compute in after (fromMessage (E := binary64 BClamp) slim) (new_map []).

Example C49_double_case : sized (binary64 BClamp) slim_map /\ reg_ok' slim_map /\
  match toMessage slim_map with
  | Ok g => Qeq_bool (fst (g_length g)) (fst (g_length slim)) = false /\ at_ (after (fromMessage (E := binary64 BClamp) g) (new_map [])) "a" (1, 0) = Ok 254
  | _ => False
  end.
Proof.
  split. { split; [vm_compute; reflexivity|]. split; [vm_compute; intuition discriminate|]. split; [vm_compute; intuition discriminate|].
           split; [vm_compute; intuition discriminate|]. split; vm_compute; reflexivity. }
  split; [apply reg_okb_ok; vm_compute; reflexivity|]. conj_vm.
Qed.

Example C50_double_case : match toGridMap (E := binary64 BClamp) slim_map empty_grid with
  | Ret _ g => m_size g = (3, 1) /\ match grid_at g "a" (1, 0) with Some (Some q) => (q == percent 254)%Q | _ => False end /\ grid_at g "z" (2, 0) = Some None
  | _ => False
  end.
Proof. conj_vm. Qed.

Example C52_double_case : dgeo 4 slim_map /\ reg_ok' slim_map /\ start slim_map = (0, 0) /\
  match toOccupancyGrid (E := binary64 BClamp) slim_map "a" [] with
  | Ok o => occ_at o 1 0 = Some 100 /\ occ_at o 0 0 = Some (-1)
  | _ => False
  end.
Proof. split; [dgeo_vm|]. split; [apply reg_okb_ok; vm_compute; reflexivity|]. conj_vm. Qed.
