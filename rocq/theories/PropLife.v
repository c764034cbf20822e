(** Property C89: one Inflate object over its whole life. *)
From Coq Require Import ZArith QArith String List Bool Lia Sorted.
From Verif Require Import Base Mat GridMapMath GridIter CostMap Inflation Throwing Effects Spec InflationSpec BaseLemmas CoreProofs CoreProofs2 CoreFinal MoveProofs AddDataProofs InflateProofs InflateFinal InflateEnv Samples PropInflate PropThrow PropEffects.
Import ListNotations.
Open Scope Z_scope.

(** ** Specification *)

(** The calls of a computer are over: n of them without an exception, or an exception
    as the last answer. *)
Definition finished (n : Z) (calls : list (Q * option Z)) : Prop :=
  Z.of_nat (length calls) = n /\ (forall d, ~ In (d, None) calls) \/
  exists pre d, calls = pre ++ [(d, None)] /\ forall d', ~ In (d', None) pre.

(** The costs that a log of calls leaves in fresh memory [g]: call number i*(r+2)+j answers
    for the offset (i, j). *)
Definition costs_of (g : Z -> Z -> Z) (r : Z) (calls : list (Q * option Z)) : Z -> Z -> Z :=
  fun i j => match nth_error calls (Z.to_nat (i * (r + 2) + j)) with Some (_, Some v) => v | _ => g i j end.

(** The costs [t] of a call with radius r, given the radius and the costs of the call before.
    [log] are the calls of the computer, from state s to s'. *)
Inductive stage (F : fenv) (x : option (Z * (Z -> Z -> Z))) (q : Q) (r : Z) (g : Z -> Z -> Z) {S} (comp : S -> Q -> S * option Z) :
  S -> list (Q * option Z) -> S -> (Z -> Z -> Z) -> Prop :=
| stage_same s t : x = Some (r, t) -> stage F x q r g comp s [] s t
| stage_new s log s' : (forall t, x <> Some (r, t)) -> runs comp s log s' ->
    (forall k d a, nth_error log k = Some (d, a) -> call_at F q r k d) -> finished ((r + 2) * (r + 2)) log ->
    stage F x q r g comp s log s' (costs_of g r log).

(** Objects after any calls, with the radius and costs of the last one. Calls that
    find no source layer do not count. *)
Inductive lived {E : Env} (F : fenv) (P : pqueue) : inflater P -> option (Z * (Z -> Z -> Z)) -> Prop :=
| lived_new : lived F P (new_inflater P) None
| lived_call o x (S : Type) g ls ld rad (comp : S -> Q -> S * option Z) m r s log s' t o' m' :
    lived F P o x -> cell_radius rad m = Ok r -> r < 2 ^ 32 - 2 -> stage F x (resn m) r g comp s log s' t ->
    inflate_s F P g ls ld rad comp o m s = (Done o' m', s') \/ inflate_s F P g ls ld rad comp o m s = (Thrown o' m', s') ->
    lived F P o' (Some (r, t)).

(** What C36, C37, C38 and C40 say of layer ld of m', with costs t. *)
Definition inflates (r : Z) (t : Z -> Z -> Z) (ls ld : string) (m m' : cmap) : Prop :=
  (forall i v, value_at m ls i v -> exists v', value_at m' ld i v' /\
     (v' = v \/ exists s, value_at m ls s lethal /\ d2 i s <= r * r /\ v' = inflated v (at_offset t i s))) /\
  (forall i v, value_at m ls i v -> (forall s, value_at m ls s lethal -> r * r < d2 i s) -> value_at m' ld i v) /\
  (forall b i v, value_at m ls b lethal -> value_at m ls i v -> d1 i b <= r ->
     exists s, value_at m ls s lethal /\ d2 i s <= d1 i b * d1 i b /\ value_at m' ld i (inflated v (at_offset t i s))) /\
  (forall b, (forall s, value_at m ls s lethal <-> s = b) -> forall i v, value_at m ls i v -> d2 i b <= r * r ->
     value_at m' ld i (inflated v (at_offset t i b))).

(** ** Logs *)

Lemma finished_none n d log : finished n ((d, None) :: log) -> log = [].
Proof.
  intros [[_ H]|(pre & d' & H & N)]; [exfalso; apply (H d); now left|].
  destruct pre as [|x pre]; cbn in H; [now injection H as _ <-|]. injection H as <- _. exfalso. apply (N d). now left.
Qed.
Lemma finished_some n d v log : finished n ((d, Some v) :: log) -> finished (n - 1) log.
Proof.
  intros [[L H]|(pre & d' & H & N)].
  - left. cbn [length] in L. split; [lia|]. intros d0 I. apply (H d0). now right.
  - right. destruct pre as [|x pre]; cbn in H; [discriminate|]. injection H as <- ->. exists pre, d'. split; auto.
    intros d0 I. apply (N d0). now right.
Qed.

Lemma log_unique {S} (comp : S -> Q -> S * option Z) (arg : nat -> Q) : forall c1 n k0 s s1 c2 s2, 
  runs comp s c1 s1 -> runs comp s c2 s2 -> finished n c1 -> finished n c2 ->
  (forall k d a, nth_error c1 k = Some (d, a) -> d = arg (k0 + k)%nat /\ Z.of_nat k < n) ->
  (forall k d a, nth_error c2 k = Some (d, a) -> d = arg (k0 + k)%nat /\ Z.of_nat k < n) -> c1 = c2 /\ s1 = s2.
Proof.
  induction c1 as [|[d a] c1 IH]; intros n k0 s s1 c2 s2 R1 R2 F1 F2 A1 A2.
  - destruct c2 as [|[d2 a2] c2].
    + inversion R1; inversion R2; subst. auto.
    + destruct (A2 O d2 a2 eq_refl) as [_ L]. destruct F1 as [[N _]|(pre & d0 & H & _)]; [cbn in *; lia|destruct pre; discriminate].
  - destruct (A1 O d a eq_refl) as [D1 L1]. destruct c2 as [|[d2 a2] c2].
    { destruct F2 as [[N _]|(pre & d0 & H & _)]; [cbn in *; lia|destruct pre; discriminate]. }
    destruct (A2 O d2 a2 eq_refl) as [D2 _]. assert (d2 = d) as -> by congruence.
    inversion R1 as [|? ? x1 ? ? ? C1 T1]; subst. inversion R2 as [|? ? x2 ? ? ? C2 T2]; subst. rewrite C1 in C2. injection C2 as <- <-.
    destruct a as [v|].
    + assert (c1 = c2 /\ s1 = s2) as [-> ->]; [|auto].
      apply (IH (n - 1) (Datatypes.S k0) x1 s1 c2 s2); auto; try (eapply finished_some; eassumption).
      * intros k d a N. destruct (A1 (Datatypes.S k) d a N). split; [rewrite H; f_equal; lia|lia].
      * intros k d a N. destruct (A2 (Datatypes.S k) d a N). split; [rewrite H; f_equal; lia|lia].
    + assert (c1 = []) as -> by (eapply finished_none; eassumption). assert (c2 = []) as -> by (eapply finished_none; eassumption).
      inversion T1; inversion T2; subst. auto.
Qed.

Definition arg_of (F : fenv) (q : Q) (r : Z) (k : nat) : Q := metres F q (Z.of_nat k / (r + 2)) (Z.of_nat k mod (r + 2)).
Lemma call_at_arg F q r k d : 0 <= r -> call_at F q r k d -> d = arg_of F q r (0 + k)%nat /\ Z.of_nat k < (r + 2) * (r + 2).
Proof.
  intros R0 (i & j & Hi & Hj & Hk & ->). split; [|nia]. unfold arg_of. cbn [Nat.add]. rewrite Hk.
  rewrite Z.div_add_l, Z.div_small, Z.add_0_r by lia. rewrite Z.add_comm, Z.mod_add, Z.mod_small by lia. reflexivity.
Qed.

(** ** What an object holds *)

Section Life.
Context {E : Env} (F : fenv) (P : pqueue) (PS : pq_spec P).

(** Entries without an answer keep what the memory held. *)
Lemma fill_costs {S} q (comp : S -> Q -> S * option Z) es : forall t s t' b s' log, NoDup es -> fill F q comp es t s = (t', b, s') ->
  runs comp s log s' -> finished (Z.of_nat (length es)) log ->
  (forall k d a, nth_error log k = Some (d, a) -> exists e, nth_error es k = Some e /\ d = f32 F (q * hyp F (fst e) (snd e))) ->
  forall k e, nth_error es k = Some e ->
    t' (fst e) (snd e) = match nth_error log k with Some (_, Some v) => v | _ => t (fst e) (snd e) end.
Proof.
  induction es as [|e0 es IH]; intros t s t' b s' log ND FI RU FN AR k e NK; [destruct k; discriminate|].
  inversion ND as [|? ? N1 N2]; subst. destruct log as [|[d a] log].
  { destruct FN as [[L _]|(pre & d & H & _)]; [discriminate L|destruct pre; discriminate H]. }
  destruct (AR O d a eq_refl) as (e' & I & ->). injection I as <-. inversion RU as [|? ? s1 ? ? ? CA T1]; subst. cbn [fill] in FI. rewrite CA in FI.
  destruct a as [v|].
  - destruct (fill_runs F q comp es _ _ _ _ _ N2 FI) as (_ & _ & _ & _ & T). destruct k as [|k]; cbn [nth_error] in NK |- *.
    + injection NK as <-. rewrite T; [apply tset_same|]. now rewrite <- surjective_pairing.
    + rewrite (IH _ _ _ _ _ log N2 FI T1) with (k := k); auto.
      * assert (tset t e0 v (fst e) (snd e) = t (fst e) (snd e)) as ->; auto. apply tset_other. intros H. rewrite <- surjective_pairing in H. subst e0.
        apply N1. eapply nth_error_In; eauto.
      * apply finished_some in FN. now replace (Z.of_nat (length es)) with (Z.of_nat (length (e0 :: es)) - 1) by (cbn [length]; lia).
      * intros k' d' a' N'. apply (AR (Datatypes.S k') d' a' N').
  - apply finished_none in FN. subst log. injection FI as <- _ _. destruct k as [|[|k]]; reflexivity.
Qed.

(** The log and the table of the loops. *)
Lemma fill_log {S} r q (comp : S -> Q -> S * option Z) g s t fin s' : 0 <= r ->
  fill F (f32 F q) comp (entries r) g s = (t, fin, s') ->
  exists log, runs comp s log s' /\ (forall k d a, nth_error log k = Some (d, a) -> call_at F q r k d) /\
    finished ((r + 2) * (r + 2)) log /\ (fin = true <-> forall d, ~ In (d, None) log) /\
    forall i j, 0 <= i < r + 2 -> 0 <= j < r + 2 -> t i j = costs_of g r log i j.
Proof.
  intros R0 FI.
  destruct (fill_runs F _ comp (entries r) g s t fin s' (sorted_NoDup _ (entries_sorted r)) FI) as (log & RU & K & B & _).
  exists log. split; auto. split.
  { intros k d a N. destruct (K k d a N) as (e & I & D & _). destruct (entries_nth r k e R0 I) as (i & j & Hi & Hj & Hk & ->). exists i, j. auto. }
  assert (PR : forall d, In (d, None) log -> exists pre, log = pre ++ [(d, None)] /\ forall d', ~ In (d', None) pre).
  { intros d I. apply In_nth_error in I as (k & NC). destruct (K k d None NC) as (_ & _ & _ & _ & L). destruct (L eq_refl) as (_ & LN).
    apply nth_error_split in NC as (pre & post & -> & LP). rewrite app_length in LN. cbn [length] in LN.
    assert (post = []) as -> by (destruct post; auto; cbn in LN; lia). exists pre. split; auto.
    intros d' Ia. apply In_nth_error in Ia as (k' & NC'). assert (k' < length pre)%nat by (apply nth_error_Some; congruence).
    destruct (K k' d' None) as (_ & _ & _ & _ & L'); [rewrite nth_error_app1; auto|]. destruct (L' eq_refl) as (_ & LN'). rewrite app_length in LN'. cbn in LN'. lia. }
  assert (FN : finished ((r + 2) * (r + 2)) log).
  { destruct fin.
    + destruct B as (L & B). left. split; [rewrite L, entries_length by auto; nia|]. intros d I. now apply (B d None).
    + destruct B as (d & I). right. destruct (PR d I) as (pre & H & N). exists pre, d. auto. }
  split; [exact FN|]. split.
  - destruct fin; split; auto; try discriminate.
    + intros _ d I. destruct B as (_ & B). now apply (B d None).
    + intros H. destruct B as (d & I). now destruct (H d).
  - intros i j Hi Hj. unfold costs_of. pose proof (nth_entries r i j Hi Hj) as NE.
    apply (fill_costs (f32 F q) comp (entries r) g s t fin s' log (sorted_NoDup _ (entries_sorted r)) FI RU) with (e := (i, j)); auto.
    + rewrite entries_length by auto. now rewrite Z2Nat.id by nia.
    + intros k d a N. destruct (K k d a N) as (e & I & D & _). eauto.
Qed.

Definition keeps (o : inflater P) (x : option (Z * (Z -> Z -> Z))) : Prop :=
  pq_wf PS (if_queue o) /\ pq_items PS (if_queue o) = [] /\
  match x with
  | None => if_cache o = if_cache (new_inflater P)
  | Some (r, t) => 0 <= r < 2 ^ 32 - 2 /\ alike (if_cache o) (Cache r (r + 2) (hyp F) t)
  end.

(** The tables of a call: those of its stage. *)
Lemma stage_tables {S} o x r q g (comp : S -> Q -> S * option Z) s : keeps o x -> 0 <= r < 2 ^ 32 - 2 ->
  exists c fin s' log t,
    (if r =? c_rad (if_cache o) then Ok (if_cache o, true, s) else compute_caches_s F g r (f32 F q) comp s) = Ok (c, fin, s') /\
    stage F x q r g comp s log s' t /\ alike c (Cache r (r + 2) (hyp F) t) /\ (fin = true <-> forall d, ~ In (d, None) log).
Proof.
  intros (_ & _ & H) Hr.
  assert (NEW : (forall t, x <> Some (r, t)) -> exists c fin s' log t, compute_caches_s F g r (f32 F q) comp s = Ok (c, fin, s') /\
    stage F x q r g comp s log s' t /\ alike c (Cache r (r + 2) (hyp F) t) /\ (fin = true <-> forall d, ~ In (d, None) log)).
  { intros NX. destruct (fill F (f32 F q) comp (entries r) g s) as [[t fin] s'] eqn:FI.
    destruct (fill_log r q comp g s t fin s' ltac:(lia) FI) as (log & RU & CA & FN & FT & TB).
    exists (Cache r (r + 2) (hyp F) t), fin, s', log, (costs_of g r log).
    split. { unfold compute_caches_s. rewrite !Z.mod_small by lia. assert ((r + 1 <? r + 2) = true) as -> by lia. now rewrite FI. }
    split; [now constructor|]. split; [|exact FT]. split; auto. }
  destruct x as [[r0 t0]|].
  - destruct H as [H1 AL]. pose proof AL as (AR & _). cbn [c_rad] in AR. rewrite AR. destruct (Z.eqb_spec r r0) as [->|N].
    + exists (if_cache o), true, s, [], t0. split; auto. split; [now constructor|]. split; auto. split; auto.
    + apply NEW. intros t Z0. congruence.
  - rewrite H. cbn [new_inflater if_cache c_rad]. assert ((r =? 2 ^ 32 - 1) = false) as -> by lia. apply NEW. discriminate.
Qed.

(** A stage is determined by what came before. *)
Lemma stage_unique {S} x q r g (comp : S -> Q -> S * option Z) s log1 s1 t1 log2 s2 t2 : 0 <= r ->
  stage F x q r g comp s log1 s1 t1 -> stage F x q r g comp s log2 s2 t2 -> log1 = log2 /\ s1 = s2 /\ t1 = t2.
Proof.
  intros R0 H1 H2. inversion H1 as [? ? X1|? ? ? X1 RU1 CA1 F1]; inversion H2 as [? ? X2|? ? ? X2 RU2 CA2 F2]; subst.
  - split; auto. split; auto. congruence.
  - exfalso. eapply X2; reflexivity.
  - exfalso. eapply X1; reflexivity.
  - destruct (log_unique comp (arg_of F q r) log1 _ O s s1 log2 s2 RU1 RU2 F1 F2) as [-> ->]; auto.
    + intros k d a N. apply call_at_arg; eauto.
    + intros k d a N. apply call_at_arg; eauto.
Qed.

Lemma add_resn ld src m u m1 : add ld src m = Ret u m1 -> resn m1 = resn m.
Proof. unfold add. destruct (negb _); [discriminate|]. destruct (exists_layer m ld); intros A; injection A as _ <-; reflexivity. Qed.

Lemma lived_keeps o x : lived F P o x -> keeps o x.
Proof.
  induction 1 as [|o x S g ls ld rad comp m r s log s' t o' m' U IH CR Hr ST H].
  - split; [apply pq_wf_empty|]. split; [apply pq_items_empty|reflexivity].
  - pose proof (cell_radius_nonneg _ _ _ CR) as R0.
    destruct (stage_tables o x r (resn m) g comp s IH ltac:(lia)) as (c & fin & s1 & log1 & t1 & TB & ST1 & AL & FT).
    destruct (stage_unique _ _ _ _ _ _ _ _ _ _ _ _ R0 ST1 ST) as (-> & -> & ->).
    destruct IH as (W & Q0 & _).
    unfold inflate_s in H. destruct (get m ls) as [src| |]; try (destruct H; discriminate).
    destruct (add ld src m) as [u m1| |] eqn:A; try (destruct H; discriminate). pose proof (add_resn _ _ _ _ _ A) as RS.
    rewrite (cell_radius_resn rad m m1 RS), CR, RS in H. cbn [rbind] in H. rewrite TB in H. destruct fin.
    + match type of H with context [bind ?a ?b ?c] => destruct (bind a b c) as [[] st| |] eqn:B; try (destruct H; discriminate) end.
      destruct H as [H|H]; [|discriminate]. injection H as <- <-. unfold bind in B.
      match type of B with match ?b with _ => _ end = _ => destruct b as [[] st1| |] eqn:B1; try discriminate end.
      apply (scan_wf P PS) in B1; [|exact W]. apply (brushfire_wf P PS) in B; [|exact B1]. destruct B as [B2 B3].
      split; [exact B2|]. split; [exact B3|]. split; [lia|exact AL].
    + destruct H as [H|H]; [discriminate|]. injection H as <- <-. split; [exact W|]. split; [exact Q0|]. split; [lia|exact AL].
Qed.

End Life.

(** ** C89 *)

(** Every call on an object that has lived. Its costs and the calls of the computer
    are those of its stage. If the computer throws, the destination layer is a
    copy of the source layer; otherwise it is inflated with those costs. *)
Theorem C89_call : forall (E : Env) F P (PS : pq_spec P) o x, lived F P o x ->
  forall S g ls ld rad (comp : S -> Q -> S * option Z) m r s,
  reg_ok' m -> has_layer m ls -> cell_radius rad m = Ok r -> r < 2 ^ 32 - 2 -> dist_ok (hyp F) r ->
  exists log s' t o' m', stage F x (resn m) r g comp s log s' t /\ lived F P o' (Some (r, t)) /\
    (forall l, l <> ld -> get m' l = get m l) /\ same_meta m m' /\ reg_ok' m' /\
    layers m' = (if exists_layer m ld then layers m else layers m ++ [ld]) /\
    ((exists d, In (d, None) log) -> inflate_s F P g ls ld rad comp o m s = (Thrown o' m', s') /\ get m' ld = get m ls) /\
    ((forall d, ~ In (d, None) log) -> inflate_s F P g ls ld rad comp o m s = (Done o' m', s') /\ inflates r t ls ld m m').
Proof.
  intros E F P PS o x LV S g ls ld rad comp m r s R HL CR SM HD. pose proof (cell_radius_nonneg _ _ _ CR) as R0.
  pose proof (lived_keeps F P PS _ _ LV) as KE. destruct HL as [src Hsrc]. destruct (r_mat _ (proj1 R) _ _ Hsrc) as (Ws & S1 & S2).
  destruct (add_ok ld src m S1 S2) as (m1 & A1 & A2 & A3 & A4 & A5 & A6).
  assert (RS : resn m1 = resn m) by (now destruct A4 as (_ & _ & _ & _ & -> & _)).
  assert (R1 : reg_ok' m1). { pose proof (pres_add' ld src Ws m R) as PA. rewrite A1 in PA. exact PA. }
  destruct (stage_tables F P PS o x r (resn m) g comp s KE ltac:(lia)) as (c & fin & s' & log & t & TB & ST & AL & FT).
  destruct fin.
  - assert (NT : forall d, ~ In (d, None) log) by (now apply FT).
    set (c' := Cache r (r + 2) (hyp F) t) in *. set (o0 := Inflater (P := P) c' (if_queue o)).
    destruct KE as (W & Q0 & _).
    destruct (inflate_tables F P PS o0 ls ld rad (fun _ => 0) m r t) as (o2 & m3 & hit & RUN & O); auto; [now exists src|cbn; now rewrite Z.eqb_refl|].
    assert (BB : forall st, bind (scan P c ls ld (mrows src) (mcols src)) (fun _ => brushfire P c ls ld (size m) (Z.to_nat (fst (size m) * snd (size m)))) st =
                            bind (scan P c' ls ld (mrows src) (mcols src)) (fun _ => brushfire P c' ls ld (size m) (Z.to_nat (fst (size m) * snd (size m)))) st).
    { apply bind_same; [now apply alike_scan|intros _; now apply alike_brushfire]. }
    assert (exists o', inflate_s F P g ls ld rad comp o m s = (Done o' m3, s')) as (o' & RUN').
    { unfold inflate_s. unfold get at 1. rewrite Hsrc, A1, (cell_radius_resn rad m m1 RS), CR. cbn [rbind]. rewrite RS, TB, BB.
      unfold inflate in RUN. unfold get at 1 in RUN. rewrite Hsrc, A1, (cell_radius_resn rad m m1 RS), CR in RUN. cbn [rbind if_cache o0 c' c_rad] in RUN. rewrite Z.eqb_refl in RUN.
      cbn [if_queue o0] in RUN. fold c' in RUN. destruct (bind _ _ _) as [u st| |]; try discriminate. injection RUN as _ <-. eexists. reflexivity. }
    exists log, s', t, o', m3. split; [exact ST|]. split; [eapply lived_call; eauto|].
    split; [apply (o_others _ _ _ _ _ _ _ O)|]. split; [apply (o_meta _ _ _ _ _ _ _ O)|]. split; [apply (o_reg _ _ _ _ _ _ _ O)|].
    split; [apply (o_layers _ _ _ _ _ _ _ O)|]. split; [intros (d & I); now destruct (NT d)|]. intros _. split; [exact RUN'|].
    split; [|split; [|split]].
    + intros i v V. destruct (outcome_sound r t ls ld m m3 hit O i v V) as (v' & V' & H & _). eauto.
    + intros i v. eapply outcome_far; eauto.
    + intros b i v. eapply outcome_l1; eauto.
    + intros b ON i v V D. pose proof (outcome_single r t ls ld m m3 hit O R b i v ON V) as H. now destruct (Z_le_gt_dec (d2 i b) (r * r)); [|lia].
  - assert (RUN : inflate_s F P g ls ld rad comp o m s = (Thrown (Inflater c (if_queue o)) m1, s')).
    { unfold inflate_s. unfold get at 1. rewrite Hsrc, A1, (cell_radius_resn rad m m1 RS), CR. cbn [rbind]. now rewrite RS, TB. }
    exists log, s', t, (Inflater c (if_queue o)), m1. split; [exact ST|]. split; [eapply lived_call; eauto|].
    split; [exact A3|]. split; [exact A4|]. split; [exact R1|]. split; [exact A5|]. split.
    + intros _. split; [exact RUN|]. rewrite A2. unfold get. now rewrite Hsrc.
    + intros NT. apply FT in NT. discriminate.
Qed.
Print Assumptions C89_call.

(** Without the source layer, map, object and computer stay as they are. *)
Theorem C89_missing : forall (E : Env) F P (o : inflater P) S g ls ld rad (comp : S -> Q -> S * option Z) m s,
  ~ has_layer m ls -> inflate_s F P g ls ld rad comp o m s = (Missing OutOfRange o m, s).
Proof.
  intros E F P o S g ls ld rad comp m s H. unfold inflate_s, get. unfold has_layer in H.
  destruct (aget (data m) ls) as [d|]; [|reflexivity]. destruct H. eauto.
Qed.
Print Assumptions C89_missing.

(** A stage is determined by the radius and costs of the call before, the computer and
    its state, and the content of fresh memory. *)
Theorem C89_determined : forall F S x q r g (comp : S -> Q -> S * option Z) s log1 s1 t1 log2 s2 t2, 0 <= r ->
  stage F x q r g comp s log1 s1 t1 -> stage F x q r g comp s log2 s2 t2 -> log1 = log2 /\ s1 = s2 /\ t1 = t2.
Proof. intros F S x q r g comp s log1 s1 t1 log2 s2 t2. apply stage_unique. Qed.
Print Assumptions C89_determined.

(** Four calls on one object, in a corridor with one obstacle, with fresh memory full of
    7s: a computer that throws at two metres; then one that counts its calls,
    with the same radius of two cells, with one cell, and with two cells again.
    The second call finds the costs that the first has left behind and does
    not call the computer; the last one repairs the table. *)
Local Definition next (rad : Q) (x : ending (list_queue true)) : ending (list_queue true) * Z :=
  match x with
  | Done o _ | Thrown o _ => inflate_s (E := exact_wrap) float_env (list_queue true) (fun _ _ => 7) "a" "b" rad counting o corridor 0
  | _ => (x, -1)
  end.
Local Definition call1 := inflate_s (E := exact_wrap) float_env (list_queue true) (fun _ _ => 7) "a" "b" 2 (fun k d => (k + 1, picky d)) (new_inflater _) corridor 0.
Local Definition call2 := next 2 (fst call1).
Local Definition call3 := next 1 (fst call2).
Local Definition call4 := next 2 (fst call3).
Example C89_case :
  lived (E := exact_wrap) float_env (list_queue true) (new_inflater _) None /\ reg_ok' corridor /\ has_layer corridor "a" /\
  cell_radius (E := exact_wrap) 1 corridor = Ok 1 /\ cell_radius (E := exact_wrap) 2 corridor = Ok 2 /\ dist_ok (hyp float_env) 2 /\
  (snd call1, snd call2, snd call3, snd call4) = (3, 0, 9, 16) /\
  match fst call1 with Thrown _ m => get m "b" | _ => Fault OutOfFuel end = get corridor "a" /\
  layer_of_seen "b" (seen (fst call2)) = Ok (Mat 1 4 [254; 150; 7; 0]) /\
  layer_of_seen "b" (seen (fst call3)) = Ok (Mat 1 4 [254; 101; 0; 0]) /\
  layer_of_seen "b" (seen (fst call4)) = Ok (Mat 1 4 [254; 101; 102; 0]).
Proof.
  split; [constructor|]. split; [now apply reg_okb_ok|]. split; [now apply exists_has|].
  split; [vm_compute; reflexivity|]. split; [vm_compute; reflexivity|]. split; [apply float_env_ok; lia|].
  split; [vm_compute; reflexivity|]. split; [vm_compute; reflexivity|]. split; [vm_compute; reflexivity|]. split; vm_compute; reflexivity.
Qed.
