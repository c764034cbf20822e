(** Property C101: loops whose body changes the map. *)
From Coq Require Import ZArith QArith Qabs String List Bool Lia Lqa.
From Verif Require Import Base BaseLemmas Mat GridMapMath GridIter CostMap Iterators Loops Spec History GeoLemmas CoreProofs CoreProofs2 MoveProofs MoveFinal CoreFinal RegProofs Samples.
Import ListNotations.
Open Scope Z_scope.

(** [executed body tr m m']: the successful calls of the body, each with the map it
    was called on, lead from m to m'. *)
Inductive executed (body : idx -> M cmap unit) : list (idx * cmap) -> cmap -> cmap -> Prop :=
| ex_nil m : executed body [] m m
| ex_cons i m m1 tr m' : body i m = Ret tt m1 -> executed body tr m1 m' -> executed body ((i, m) :: tr) m m'.

Lemma runB_runM {I A} (past : I -> bool) (cur : I -> res A) next body : forall fuel it vs m,
  runM past cur next fuel it = Ok vs -> runB past cur next body fuel it m = mfor vs body m.
Proof.
  induction fuel as [|f IH]; intros it vs m H; cbn [runM runB] in *; [discriminate|]. destruct (past it).
  - injection H as <-. reflexivity.
  - destruct (cur it) as [a| |]; cbn [rbind] in H; try discriminate.
    destruct (next it) as [it'| |]; cbn [rbind] in H; try discriminate.
    destruct (runM past cur next f it') as [l| |] eqn:K; cbn [rbind] in H; try discriminate. injection H as <-.
    cbn [mfor]. destruct (body a m) as [[] m'| |]; auto.
Qed.

Lemma run_runM {I A} (past : I -> bool) (cur : I -> A) next : forall fuel it,
  runM past (fun i => Ok (cur i)) (fun i => Ok (next i)) fuel it = run past cur next fuel it.
Proof. induction fuel as [|f IH]; intros it; cbn [runM run rbind]; [reflexivity|]. destruct (past it); [reflexivity|]. now rewrite IH. Qed.

Lemma mfor_executed body : forall vs m m', mfor vs body m = Ret tt m' -> exists tr, map fst tr = vs /\ executed body tr m m'.
Proof.
  induction vs as [|i vs IH]; intros m m' H; cbn [mfor] in H.
  - injection H as <-. exists []. split; constructor.
  - destruct (body i m) as [[] m1| |] eqn:B; try discriminate. destruct (IH _ _ H) as (tr & T & X).
    exists ((i, m) :: tr). split; [cbn; congruence|]. econstructor; eauto.
Qed.

(** Whatever the body does, it is called on the cells the map had at the beginning,
    each once, until it fails. *)
Theorem C101_map : forall (E : Env) (body : idx -> M cmap unit) m, in_range (size m) (start m) ->
  exists vs, map_visits (size m) (start m) = Ok vs /\ NoDup vs /\ (forall i, In i vs <-> in_range (size m) i) /\
    map_loop body m = mfor vs body m /\
    (forall m', map_loop body m = Ret tt m' -> exists tr, map fst tr = vs /\ executed body tr m m').
Proof.
  intros E body m S. destruct (map_visits2_final E _ _ S) as (vs & _ & V & ND & I & _). exists (map fst vs).
  assert (L : map_loop body m = mfor (map fst vs) body m).
  { unfold map_loop, loopB. unfold map_visits in V. destruct (map_iter_new (size m) (start m)) as [it| |]; try discriminate.
    cbn [rbind] in V. apply runB_runM. now rewrite run_runM. }
  split; [exact V|]. split; [exact ND|]. split; [exact I|]. split; [exact L|]. intros m' H. rewrite L in H. now apply mfor_executed.
Qed.
Print Assumptions C101_map.

Theorem C101_shapes : forall (E : Env) (body : idx -> M cmap unit) m,
  (forall c R vs, circle_visits m c R = Ok vs -> circle_loop body c R m = mfor vs body m) /\
  (forall sqr c L cs sn vs, ellipse_visits sqr m c L cs sn = Ok vs -> ellipse_loop body sqr c L cs sn m = mfor vs body m) /\
  (forall ps vs, polygon_visits m ps = Ok vs -> polygon_loop body ps m = mfor vs body m).
Proof.
  intros E body m.
  assert (F : forall ins n s a k vs, filt_visits ins n s a k = Ok vs -> filt_loop body ins n s a k m = mfor vs body m).
  { intros ins n s a k vs H. unfold filt_visits in H. unfold filt_loop, loopB. destruct (filt_new ins n s a k) as [it| |]; try discriminate.
    cbn [rbind] in H. now apply runB_runM. }
  split; [|split].
  - intros c R vs H. unfold circle_visits in H. unfold circle_loop. destruct (circle_window m c R). now apply F.
  - intros sqr c L cs sn vs H. unfold ellipse_visits in H. unfold ellipse_loop. destruct (ellipse_window sqr m c L cs sn). now apply F.
  - intros ps vs H. unfold polygon_visits in H. unfold polygon_loop. destruct (polygon_window m ps) as [[s n]| |]; try discriminate. now apply F.
Qed.
Print Assumptions C101_shapes.

Theorem C101_others : forall (E : Env) (body : idx -> M cmap unit) m,
  (forall body2 a n vs, sub_visits (size m) (start m) a n = Ok vs -> sub_loop body2 a n m = mfor vs body2 m) /\
  (forall a b vs, line_visits a b = Ok vs -> line_loop body a b m = mfor vs body m) /\
  (forall c R fuel vs, spiral_visits m c R fuel = Ok vs -> spiral_loop body c R fuel m = mfor vs body m).
Proof.
  intros E body m. split; [|split].
  - intros body2 a n vs H. apply runB_runM. now rewrite (run_runM sb_past (fun it => (sb_index it, sb_sindex it))).
  - intros a b vs H. apply runB_runM. now rewrite run_runM.
  - intros c R fuel vs H. unfold spiral_visits in H. unfold spiral_loop, loopB. destruct (spiral_new m c R) as [it| |]; try discriminate.
    now apply runB_runM.
Qed.
Print Assumptions C101_others.

(** Bodies made of moves and writes of cells, chosen from the cell and the map. *)
Definition moves_writes (m : cmap) (o : op) : Prop :=
  match o with
  | OpMove _ => True
  | OpAt l i _ => In l (layers m) /\ in_range (size m) i
  | _ => False
  end.

Definition calls_body {E : Env} (calls : idx -> cmap -> list op) (i : idx) : M cmap unit := fun m => mfor (calls i m) run_op m.

Section Moves.
Context {E : Env} (X : Exact E) (BW : bpol = BWrap).

(** z cells further, with the start index turned accordingly. *)
Definition turned1 (n s0 : Z) (r p0 p : Q) (s z : Z) : Prop := (p == p0 + inject_Z z * r)%Q /\ (z + s - s0) mod n = 0.

Record turned (m m' : cmap) : Prop :=
  { t_geo : geo_ok m'; t_reg : reg_ok' m'; t_basic : basics_exist m'; t_layers : layers m' = layers m;
    t_size : size m' = size m; t_res : resn m' = resn m; t_len : len m' = len m;
    t_row : exists z, turned1 (fst (size m)) (fst (start m)) (resn m) (fst (pos m)) (fst (pos m')) (fst (start m')) z;
    t_col : exists z, turned1 (snd (size m)) (snd (start m)) (resn m) (snd (pos m)) (snd (pos m')) (snd (start m')) z }.

Lemma turned_refl m : geo_ok m -> reg_ok' m -> basics_exist m -> turned m m.
Proof.
  intros G R B. constructor; auto; exists 0; (split; [change (inject_Z 0) with 0%Q; ring|]);
  match goal with |- (0 + ?s - ?s) mod _ = 0 => replace (0 + s - s) with 0 by lia end; reflexivity.
Qed.

Lemma turned1_trans n s0 r p0 p s z p' k : 0 < n -> turned1 n s0 r p0 p s z -> (p' == p - inject_Z k * r)%Q ->
  turned1 n s0 r p0 p' ((s + k) mod n) (z - k).
Proof.
  intros N [P Z] P'. split.
  - rewrite P', P. unfold Zminus. rewrite inject_Z_plus, inject_Z_opp. ring.
  - replace (z - k + (s + k) mod n - s0) with ((z - k - s0) + (s + k) mod n) by lia. rewrite Zplus_mod_idemp_r.
    replace (z - k - s0 + (s + k)) with (z + s - s0) by lia. exact Z.
Qed.

Lemma turned_move p m m1 : turned m m1 -> exists b rs m2, move p m1 = Ret (b, rs) m2 /\ turned m m2.
Proof.
  intros T. pose proof (t_geo _ _ T) as G. destruct (g_size _ G) as [N0 N1].
  destruct (move_state p m1 (t_reg _ _ T) (t_basic _ _ T) (g_start _ G) (bound_wraps_BWrap _ _ _ BW N0) (bound_wraps_BWrap _ _ _ BW N1))
    as (rs & m2 & H & R2 & E1 & E2 & E3 & E4 & E5 & E6 & E7 & E8 & E9 & NL & V & RG).
  destruct (move_single_final E X p m1 G (t_reg _ _ T) (t_basic _ _ T)) as (b' & rs' & m2' & H' & G2 & _ & _ & _ & _ & _ & _ & _ & _ & XL & _).
  rewrite H in H'. injection H' as <- <- <-. eexists _, rs, m2. split; [exact H|].
  set (k0 := index_shift1 (fsub (fst p) (fst (pos m1))) (resn m1)) in *. set (k1 := index_shift1 (fsub (snd p) (snd (pos m1))) (resn m1)) in *.
  unfold bound1 in E8. rewrite BW, !wrap1_mod in E8 by auto.
  assert (P0 : (fst (pos m2) == fst (pos m1) - inject_Z k0 * resn m)%Q).
  { rewrite E9; cbn [fst]. rewrite (fadd_eq X). unfold position_shift1. rewrite (fmul_eq X), <- (t_res _ _ T), inject_Z_opp. ring. }
  assert (P1 : (snd (pos m2) == snd (pos m1) - inject_Z k1 * resn m)%Q).
  { rewrite E9; cbn [snd]. rewrite (fadd_eq X). unfold position_shift1. rewrite (fmul_eq X), <- (t_res _ _ T), inject_Z_opp. ring. }
  pose proof (t_size _ _ T) as SZ. rewrite SZ in *.
  destruct (t_row _ _ T) as [z0 Z0], (t_col _ _ T) as [z1 Z1].
  constructor; auto; try (rewrite ?E1, ?E5, ?E6, ?E7; apply T).
  - intros l Hl. rewrite E4 in Hl. apply (t_basic _ _ T) in Hl as [d0 Hd]. destruct (V l d0 Hd) as (d1 & Hd1 & _). now exists d1.
  - exists (z0 - k0). rewrite E8. cbn [fst]. now apply (turned1_trans _ _ _ _ _ _ _ _ k0 N0 Z0).
  - exists (z1 - k1). rewrite E8. cbn [snd]. now apply (turned1_trans _ _ _ _ _ _ _ _ k1 N1 Z1).
Qed.

Lemma turned_write l i v m m1 : turned m m1 -> In l (layers m) -> in_range (size m) i ->
  exists m2, at_set l i v m1 = Ret tt m2 /\ turned m m2.
Proof.
  intros T Hl Hi. pose proof (t_reg _ _ T) as [R S].
  assert (HL : has_layer m1 l). { apply exists_has, (akeys_has _ _ R). now rewrite (t_layers _ _ T). }
  destruct (at_set_ok l i v m1 R HL) as (m2 & H & _ & _ & L2 & M2 & X2); [now rewrite (t_size _ _ T)|].
  exists m2. split; [exact H|]. pose proof (pres_at_set l i v m1 (conj R S)) as P. rewrite H in P.
  destruct M2 as (F1 & F2 & F3 & F4 & F5 & F6 & F7 & F8).
  destruct T as [G0 R0 B0 L0 S0 D0 N0 Z0 Z1]. constructor; rewrite <- ?F4, <- ?F5, <- ?F6, <- ?F7, <- ?F8; auto.
  - destruct G0 as [g1 g2 g3 g4]. constructor; rewrite <- ?F4, <- ?F5, <- ?F6, <- ?F7, <- ?F8; auto.
  - intros k Hk. rewrite <- F3 in Hk. apply exists_has. rewrite X2. now apply exists_has, B0.
  - now rewrite L2.
Qed.

Lemma turned_calls os m : forall m1, turned m m1 -> Forall (moves_writes m) os -> exists m2, mfor os run_op m1 = Ret tt m2 /\ turned m m2.
Proof.
  induction os as [|o os IH]; intros m1 T F; cbn [mfor]; [now exists m1|]. inversion F as [|? ? O F']; subst.
  assert (K : exists m2, run_op o m1 = Ret tt m2 /\ turned m m2).
  { destruct o; cbn [moves_writes] in O; try contradiction; cbn [run_op].
    - destruct O. now apply turned_write.
    - destruct (turned_move p m m1 T) as (b & rs & m2 & H & T2). exists m2. split; [|exact T2]. unfold ignore, bind. now rewrite H. }
  destruct K as (m2 & -> & T2). now apply IH.
Qed.

Lemma turned_loop calls m : forall vs m1, turned m m1 -> (forall i m2, In i vs -> Forall (moves_writes m) (calls i m2)) ->
  exists tr m', mfor vs (calls_body calls) m1 = Ret tt m' /\ map fst tr = vs /\ executed (calls_body calls) tr m1 m' /\
    turned m m' /\ (forall i mi, In (i, mi) tr -> turned m mi).
Proof.
  induction vs as [|i vs IH]; intros m1 T HV; cbn [mfor].
  - exists [], m1. split; [reflexivity|]. split; [reflexivity|]. split; [constructor|]. split; [exact T|]. intros ? ? [].
  - destruct (turned_calls (calls i m1) m m1 T) as (m2 & H & T2); [apply HV; now left|].
    destruct (IH m2 T2) as (tr & m' & H' & V' & X' & T' & A'); [intros; apply HV; now right|].
    assert (B : calls_body calls i m1 = Ret tt m2) by exact H. rewrite B, H'.
    exists ((i, m1) :: tr), m'. split; [reflexivity|]. split; [cbn; congruence|]. split; [econstructor; eauto|]. split; [exact T'|].
    intros j mj [J|J]; [injection J as <- <-; exact T|eauto].
Qed.

Lemma turned1_place n s0 r p0 L p s z i : 0 < n -> (L == inject_Z n * r)%Q -> turned1 n s0 r p0 p s z ->
  exists a, (centre1 L p r ((i - s) mod n) == centre1 L p0 r ((i - s0) mod n) + inject_Z a * L)%Q.
Proof.
  intros N HL [P Z]. set (w := (i - s) mod n). set (w0 := (i - s0) mod n).
  assert (K : (z - w + w0) mod n = 0).
  { replace (z - w + w0) with (z + w0 - w) by lia. unfold w. rewrite Zminus_mod_idemp_r. unfold w0.
    replace (z + (i - s0) mod n - (i - s)) with (z - (i - s) + (i - s0) mod n) by lia. rewrite Zplus_mod_idemp_r.
    replace (z - (i - s) + (i - s0)) with (z + s - s0) by lia. exact Z. }
  apply Z.mod_divide in K as [a K]; [|lia]. exists a. unfold centre1. rewrite P.
  assert (Kq : (inject_Z z - inject_Z w + inject_Z w0 == inject_Z a * inject_Z n)%Q).
  { rewrite <- inject_Z_mult, <- K. unfold Zminus. rewrite !inject_Z_plus, inject_Z_opp. ring. }
  assert (Kr : ((inject_Z z - inject_Z w + inject_Z w0) * r == inject_Z a * L)%Q) by (rewrite Kq, HL; ring).
  rewrite <- Kr. ring.
Qed.

Lemma turned_place m m1 i : geo_ok m -> turned m m1 -> in_range (size m) i ->
  exists p0 p a b, getPosition m i = Some p0 /\ getPosition m1 i = Some p /\
    (fst p == fst p0 + inject_Z a * fst (len m))%Q /\ (snd p == snd p0 + inject_Z b * snd (len m))%Q.
Proof.
  intros G T Hi. destruct (getPosition_centre X m i G Hi) as (p0 & H0 & P0 & P1).
  destruct (getPosition_centre X m1 i (t_geo _ _ T)) as (p & H1 & Q0 & Q1); [now rewrite (t_size _ _ T)|].
  destruct (g_len _ G) as [L0 L1]. cbn [fst snd] in L0, L1. destruct (g_size _ G) as [N0 N1].
  destruct (t_row _ _ T) as [z0 Z0], (t_col _ _ T) as [z1 Z1].
  destruct (turned1_place _ _ _ _ _ _ _ _ (fst i) N0 L0 Z0) as [a A]. destruct (turned1_place _ _ _ _ _ _ _ _ (snd i) N1 L1 Z1) as [b B].
  exists p0, p, a, b. split; [exact H0|]. split; [exact H1|]. rewrite Q0, Q1, P0, P1. unfold centre, world_index. cbn [fst snd].
  rewrite (t_size _ _ T), (t_res _ _ T), (t_len _ _ T). split; assumption.
Qed.

Lemma turned1_inj n s0 r p0 L p1 s1 z1 i1 p2 s2 z2 i2 : (0 < r)%Q -> 0 <= i1 < n -> 0 <= i2 < n ->
  turned1 n s0 r p0 p1 s1 z1 -> turned1 n s0 r p0 p2 s2 z2 ->
  (centre1 L p1 r ((i1 - s1) mod n) == centre1 L p2 r ((i2 - s2) mod n))%Q -> i1 = i2.
Proof.
  intros Hr I1 I2 [P1 Z1] [P2 Z2] C. unfold centre1 in C. rewrite P1, P2 in C.
  set (a := (i1 - s1) mod n) in *. set (b := (i2 - s2) mod n) in *.
  assert (K : ((inject_Z z1 - inject_Z a - (inject_Z z2 - inject_Z b)) * r == 0)%Q).
  { setoid_replace ((inject_Z z1 - inject_Z a - (inject_Z z2 - inject_Z b)) * r)%Q
      with ((p0 + inject_Z z1 * r + L / 2 - (inject_Z a + (1#2)) * r) - (p0 + inject_Z z2 * r + L / 2 - (inject_Z b + (1#2)) * r))%Q by field.
    rewrite C. ring. }
  apply Qmult_integral in K as [K|K]; [|lra].
  assert (K' : z1 - a = z2 - b).
  { apply inject_Z_injective. unfold Zminus. rewrite !inject_Z_plus, !inject_Z_opp. lra. }
  assert (A : (z1 - a + s0 - (z1 + s1 - s0)) mod n = (s0 + s0 - i1) mod n).
  { replace (z1 - a + s0 - (z1 + s1 - s0)) with (s0 + s0 - s1 - a) by lia. unfold a. rewrite Zminus_mod_idemp_r. f_equal. lia. }
  assert (B : (z2 - b + s0 - (z2 + s2 - s0)) mod n = (s0 + s0 - i2) mod n).
  { replace (z2 - b + s0 - (z2 + s2 - s0)) with (s0 + s0 - s2 - b) by lia. unfold b. rewrite Zminus_mod_idemp_r. f_equal. lia. }
  rewrite <- Zminus_mod_idemp_r, Z1, Z.sub_0_r in A. rewrite <- Zminus_mod_idemp_r, Z2, Z.sub_0_r in B.
  rewrite K', B in A. clear - A I1 I2.
  assert (N : n <> 0) by lia. pose proof (Z.mod_eq (s0 + s0 - i1) n N) as D1. pose proof (Z.mod_eq (s0 + s0 - i2) n N) as D2.
  set (u := (s0 + s0 - i1) / n) in *. set (v := (s0 + s0 - i2) / n) in *. rewrite D1, D2 in A. clearbody u v. clear D1 D2.
  assert (u - v = 0); [|nia]. assert (n * (u - v) = i2 - i1) by lia. nia.
Qed.
End Moves.

(** A body that moves the map and writes cells: nothing fails, every access to the
    current cell is in range, and no two iterations are at the same position, the
    positions being those at the time of the iteration. *)
Theorem C101_moves : forall (E : Env), Exact E -> bpol = BWrap -> forall calls m,
  geo_ok m -> reg_ok' m -> basics_exist m ->
  (forall i m1, in_range (size m) i -> Forall (moves_writes m) (calls i m1)) ->
  exists tr m', map_loop (calls_body calls) m = Ret tt m' /\ executed (calls_body calls) tr m m' /\
    (forall i, In i (map fst tr) <-> in_range (size m) i) /\ NoDup (map fst tr) /\
    geo_ok m' /\ reg_ok' m' /\ size m' = size m /\
    (forall i mi, In (i, mi) tr -> (forall l, In l (layers m) -> exists v, at_ mi l i = Ok v) /\
       exists p0 p a b, getPosition m i = Some p0 /\ getPosition mi i = Some p /\
         (fst p == fst p0 + inject_Z a * fst (len m))%Q /\ (snd p == snd p0 + inject_Z b * snd (len m))%Q) /\
    (forall i mi j mj p q, In (i, mi) tr -> In (j, mj) tr -> getPosition mi i = Some p -> getPosition mj j = Some q -> veq p q -> i = j).
Proof.
  intros E X BW calls m G R B C. destruct (C101_map E (calls_body calls) m (g_start _ G)) as (vs & _ & ND & I & L & _).
  destruct (turned_loop X BW calls m vs m (turned_refl m G R B)) as (tr & m' & H & V & XE & T & A); [intros i m1 Hi; now apply C, I|].
  exists tr, m'. rewrite L, V. split; [exact H|]. split; [exact XE|]. split; [exact I|]. split; [exact ND|].
  split; [apply T|]. split; [apply T|]. split; [apply T|].
  assert (RG : forall i mi, In (i, mi) tr -> in_range (size m) i).
  { intros i mi Hi. apply I. rewrite <- V. now apply (in_map fst) in Hi. }
  split.
  - intros i mi Hi. pose proof (A i mi Hi) as Ti. pose proof (t_reg _ _ Ti) as [Ri Si]. split.
    + intros l Hl. destruct (reg_value mi l i Ri) as [v Hv].
      * apply exists_has, (akeys_has _ _ Ri). now rewrite (t_layers _ _ Ti).
      * rewrite (t_size _ _ Ti). eauto.
      * exists v. now apply at_value.
    + apply (turned_place X m mi i G Ti). eauto.
  - intros i mi j mj p q Hi Hj Hp Hq [V0 V1]. pose proof (A i mi Hi) as Ti. pose proof (A j mj Hj) as Tj.
    pose proof (RG _ _ Hi) as Ri. pose proof (RG _ _ Hj) as Rj.
    destruct (getPosition_centre X mi i (t_geo _ _ Ti)) as (p' & Hp' & P0 & P1); [now rewrite (t_size _ _ Ti)|].
    destruct (getPosition_centre X mj j (t_geo _ _ Tj)) as (q' & Hq' & Q0 & Q1); [now rewrite (t_size _ _ Tj)|].
    rewrite Hp in Hp'. injection Hp' as <-. rewrite Hq in Hq'. injection Hq' as <-. rewrite P0, Q0 in V0. rewrite P1, Q1 in V1.
    unfold centre, world_index in V0, V1. cbn [fst snd] in V0, V1.
    rewrite (t_size _ _ Ti), (t_res _ _ Ti), (t_len _ _ Ti), (t_size _ _ Tj), (t_res _ _ Tj), (t_len _ _ Tj) in V0, V1.
    destruct (t_row _ _ Ti) as [a0 A0], (t_col _ _ Ti) as [a1 A1], (t_row _ _ Tj) as [b0 B0], (t_col _ _ Tj) as [b1 B1].
    destruct Ri as [Ri0 Ri1], Rj as [Rj0 Rj1]. pose proof (g_res _ G) as Hr.
    pose proof (turned1_inj _ _ _ _ _ _ _ _ _ _ _ _ _ Hr Ri0 Rj0 A0 B0 V0) as K0.
    pose proof (turned1_inj _ _ _ _ _ _ _ _ _ _ _ _ _ Hr Ri1 Rj1 A1 B1 V1) as K1.
    destruct i, j. cbn [fst snd] in K0, K1. congruence.
Qed.
Print Assumptions C101_moves.

(** In a circle too, a cell is visited where it was when the loop began, or a whole
    number of map lengths from there. *)
Theorem C101_circle_moves : forall (E : Env), Exact E -> bpol = BWrap -> forall calls m c R vs,
  geo_ok m -> reg_ok' m -> basics_exist m -> circle_visits m c R = Ok vs ->
  (forall i m1, In i vs -> Forall (moves_writes m) (calls i m1)) ->
  exists tr m', circle_loop (calls_body calls) c R m = Ret tt m' /\ executed (calls_body calls) tr m m' /\ map fst tr = vs /\
    forall i mi, In (i, mi) tr -> in_range (size m) i -> exists p0 p a b, getPosition m i = Some p0 /\ getPosition mi i = Some p /\
      (fst p == fst p0 + inject_Z a * fst (len m))%Q /\ (snd p == snd p0 + inject_Z b * snd (len m))%Q.
Proof.
  intros E X BW calls m c R vs G RG B V C. destruct (C101_shapes E (calls_body calls) m) as (S & _). rewrite (S c R vs V).
  destruct (turned_loop X BW calls m vs m (turned_refl m G RG B) C) as (tr & m' & H & V' & XE & T & A).
  exists tr, m'. split; [exact H|]. split; [exact XE|]. split; [exact V'|]. intros i mi Hi Ri. eapply turned_place; eauto.
Qed.
Print Assumptions C101_circle_moves.

(** A map of 2 x 2 cells, and a loop that sets its cells to 7 while it moves on by a
    cell: only the last cell is left. *)
Definition tiny : cmap := Eval vm_compute in after (setGeometry (E := exact_wrap) (2#1, 2#1)%Q 1 (0, 0)%Q) (new_map ["a"%string]).
Definition onward (i : idx) (m : cmap) : list op := [OpAt "a" i 7; OpMove (fst (pos m) + resn m, snd (pos m))%Q].

Example C101_case : geo_ok tiny /\ reg_ok' tiny /\ basics_exist tiny /\
  (forall i m1, in_range (size tiny) i -> Forall (moves_writes tiny) (onward i m1)) /\
  exists m', map_loop (E := exact_wrap) (calls_body (E := exact_wrap) onward) tiny = Ret tt m' /\
    at_ m' "a" (1, 1) = Ok 7 /\ at_ m' "a" (0, 0) = Ok 255 /\ at_ m' "a" (0, 1) = Ok 255 /\ at_ m' "a" (1, 0) = Ok 255.
Proof.
  split; [apply geo_okb_ok; vm_compute; reflexivity|]. split; [apply reg_okb_ok; vm_compute; reflexivity|].
  split; [apply basics_existb_ok; vm_compute; reflexivity|]. split.
  - intros i m1 Hi. constructor; [split; [now left|exact Hi]|]. constructor; [exact I|constructor].
  - eexists. split; [vm_compute; reflexivity|]. conj_vm.
Qed.

(** A loop that makes the map smaller goes on over the cells it had. *)
Theorem C101_resized_refuted : exists m calls, geo_ok m /\ reg_ok' m /\ basics_exist m /\
  (forall i m1, calls i m1 = [OpAt "a" i 7; OpSetGeometry (1#1, 1#1)%Q 1 (0, 0)%Q]) /\
  map_loop (E := exact_wrap) (calls_body (E := exact_wrap) calls) m = Flt OutOfBounds.
Proof.
  exists tiny, (fun i _ => [OpAt "a" i 7; OpSetGeometry (1#1, 1#1)%Q 1 (0, 0)%Q]).
  split; [apply geo_okb_ok; vm_compute; reflexivity|]. split; [apply reg_okb_ok; vm_compute; reflexivity|].
  split; [apply basics_existb_ok; vm_compute; reflexivity|]. split; [reflexivity|]. vm_compute. reflexivity.
Qed.
Print Assumptions C101_resized_refuted.

(** A loop over a circle that moves the map visits cells that are outside by then. *)
Definition back (i : idx) (m : cmap) : list op := [OpMove (fst (pos m) - resn m, snd (pos m))%Q].

Theorem C101_circle_refuted : exists m c R vs tr m' i mi p, geo_ok m /\ reg_ok' m /\ basics_exist m /\
  circle_visits (E := exact_wrap) m c R = Ok vs /\
  circle_loop (E := exact_wrap) (calls_body (E := exact_wrap) back) c R m = Ret tt m' /\
  executed (calls_body (E := exact_wrap) back) tr m m' /\ In (i, mi) tr /\
  getPosition (E := exact_wrap) mi i = Some p /\ ~ in_circle c R p.
Proof.
  exists tiny, (1#2, 1#2)%Q, (5#4)%Q. eexists _, [((0, 0), _); ((0, 1), _); ((1, 0), _)], _, (0, 1), _, _.
  split; [apply geo_okb_ok; vm_compute; reflexivity|]. split; [apply reg_okb_ok; vm_compute; reflexivity|].
  split; [apply basics_existb_ok; vm_compute; reflexivity|]. split; [vm_compute; reflexivity|]. split; [vm_compute; reflexivity|].
  split. { econstructor; [vm_compute; reflexivity|]. econstructor; [vm_compute; reflexivity|]. econstructor; [vm_compute; reflexivity|]. constructor. }
  split; [right; left; reflexivity|]. split; [vm_compute; reflexivity|]. vm_compute. intuition discriminate.
Qed.
Print Assumptions C101_circle_refuted.

(** With the clamping boundIndexToRange of grid_map 1.6 (see C17) a position can come
    twice: a move to and fro after the first row turns the buffer. *)
Definition to_and_fro (i : idx) (m : cmap) : list op :=
  if fst i =? 0 then if snd i =? 1 then [OpMove (1, 0)%Q; OpMove (0, 0)%Q] else [] else [].

Theorem C101_clamp_refuted : exists m calls tr m' i mi j mj p q, geo_ok m /\ reg_ok' m /\ basics_exist m /\
  (forall i m1, Forall (moves_writes m) (calls i m1)) /\
  map_loop (E := exact_clamp) (calls_body (E := exact_clamp) calls) m = Ret tt m' /\
  executed (calls_body (E := exact_clamp) calls) tr m m' /\ In (i, mi) tr /\ In (j, mj) tr /\
  getPosition (E := exact_clamp) mi i = Some p /\ getPosition (E := exact_clamp) mj j = Some q /\ veq p q /\ i <> j.
Proof.
  exists tiny, to_and_fro. eexists [((0, 0), _); ((0, 1), _); ((1, 0), _); ((1, 1), _)], _, (0, 0), _, (1, 0), _, _, _.
  split; [apply geo_okb_ok; vm_compute; reflexivity|]. split; [apply reg_okb_ok; vm_compute; reflexivity|].
  split; [apply basics_existb_ok; vm_compute; reflexivity|].
  split. { intros i m1. unfold to_and_fro. destruct (fst i =? 0), (snd i =? 1); repeat constructor. }
  split; [vm_compute; reflexivity|].
  split. { do 4 (econstructor; [vm_compute; reflexivity|]). constructor. }
  split; [left; reflexivity|]. split; [right; right; left; reflexivity|].
  split; [vm_compute; reflexivity|]. split; [vm_compute; reflexivity|]. split; [vm_compute; intuition discriminate|discriminate].
Qed.
Print Assumptions C101_clamp_refuted.
