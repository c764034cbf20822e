(** Properties C57-C59, C65 and C66: resource names, the nodes that save, load
    and relay cost maps. *)
From Coq Require Import ZArith QArith Qround Qabs Qfield Ascii String List Bool Lia Lqa Permutation.
From Coq Require Import ZifyBool.
From Verif Require Import Base Mat GridMapMath GridIter CostMap Converter Bundles Spec ConvertSpec BaseLemmas GeoLemmas CoreProofs CoreProofs2 CoreFinal IterProofs MoveProofs AddDataProofs FloatLemmas FloatMono MessageProofs PropMessage PropGrid PropImage PropBundle RegProofs Samples.
Import ListNotations.
Open Scope Z_scope.

(** ** C57 *)

(** [sub] is a part of [s]. *)
Definition part_of (sub s : string) : Prop := exists a b, s = (a ++ sub ++ b)%string.

(** No slash in [s]. *)
Definition slash_free (s : string) : Prop := ~ part_of "/" s.

Lemma prefix_iff a : forall s, String.prefix a s = true <-> exists b, s = (a ++ b)%string.
Proof.
  induction a as [|c a IH]; intros s; cbn [String.prefix].
  - split; [intros _; now exists s|intros _; now destruct s].
  - destruct s as [|d s]; [split; [discriminate|intros [b H]; discriminate]|].
    cbn [String.prefix]. destruct (ascii_dec c d) as [->|N].
    + rewrite IH. split; intros [b H]; exists b; cbn in *; congruence.
    + split; [discriminate|]. intros [b H]. injection H as H _. congruence.
Qed.

Lemma find_sub_iff sub : forall s, find_sub sub s = true <-> part_of sub s.
Proof.
  induction s as [|c s IH]; cbn [find_sub]; rewrite orb_true_iff, prefix_iff.
  - split.
    + intros [[b H]|H]; [exists EmptyString, b; exact H|discriminate].
    + intros (a & b & H). left. destruct a; [exists b; exact H|discriminate].
  - split.
    + intros [[b H]|H]; [exists EmptyString, b; exact H|]. apply IH in H as (a & b & ->). now exists (String c a), b.
    + intros ([|c' a] & b & H); [left; exists b; exact H|]. injection H as -> ->. right. apply IH. now exists a, b.
Qed.

Lemma slash_free_cons c s : slash_free (String c s) <-> c <> "/"%char /\ slash_free s.
Proof.
  unfold slash_free. split.
  - intros H. split; [intros ->; apply H; now exists EmptyString, s|]. intros (a & b & ->). apply H. now exists (String c a), b.
  - intros [N H] ([|c' a] & b & K); cbn in K; injection K as -> K; [congruence|]. apply H. now exists a, b.
Qed.

Lemma split_slash_iff s : match split_slash s with
  | None => slash_free s
  | Some (p, r) => slash_free p /\ s = (p ++ "/" ++ r)%string
  end.
Proof.
  induction s as [|c s IH]; cbn [split_slash].
  - intros ([|c a] & b & H); discriminate.
  - destruct (Ascii.eqb_spec c "/"%char) as [->|N].
    + split; [|reflexivity]. intros ([|c a] & b & H); discriminate.
    + destruct (split_slash s) as [[p r]|].
      * destruct IH as [A ->]. split; [now apply slash_free_cons|reflexivity].
      * now apply slash_free_cons.
Qed.

Lemma slash_unique p r : forall p' r', slash_free p -> slash_free p' -> (p ++ "/" ++ r)%string = (p' ++ "/" ++ r')%string -> p = p' /\ r = r'.
Proof.
  induction p as [|c p IH]; intros [|c' p'] r' A B H; cbn in H.
  - injection H as ->. auto.
  - injection H as <- _. apply slash_free_cons in B as [B _]. congruence.
  - injection H as -> _. apply slash_free_cons in A as [A _]. congruence.
  - injection H as -> H. apply slash_free_cons in A as [_ A], B as [_ B]. destruct (IH p' r' A B H). subst. auto.
Qed.

(** A file is chosen by containing both parts, wherever they occur in it. *)
Definition offered (package rest f : string) : Prop := part_of package f /\ part_of rest f.

Theorem C57_resolve : forall plugins name,
  (slash_free name -> resolveResourceName plugins name = Throw InvalidArgument) /\
  (forall package rest, slash_free package -> name = (package ++ "/" ++ rest)%string ->
     (exists pre f post, plugins = pre ++ f :: post /\ offered package rest f /\
        (forall x, In x pre -> ~ offered package rest x) /\ resolveResourceName plugins name = Ok f) \/
     ((forall x, In x plugins -> ~ offered package rest x) /\ resolveResourceName plugins name = Throw RuntimeError)) /\
  (slash_free name \/ exists package rest, slash_free package /\ name = (package ++ "/" ++ rest)%string).
Proof.
  intros plugins name. pose proof (split_slash_iff name) as S. unfold resolveResourceName.
  split; [|split].
  - intros H. destruct (split_slash name) as [[p r]|]; auto. destruct S as [_ ->]. exfalso. apply H. now exists p, r.
  - intros p r SF ->. destruct (split_slash (p ++ "/" ++ r)) as [[p' r']|]; [|exfalso; apply S; now exists p, r].
    destruct S as [SF' Q]. apply slash_unique in Q as [<- <-]; auto. clear SF SF'.
    assert (O : forall x, find_sub p x && find_sub r x = true <-> offered p r x).
    { intros x. rewrite andb_true_iff, !find_sub_iff. reflexivity. }
    induction plugins as [|x t IH]; cbn [find]; [right; split; [now intros|reflexivity]|].
    destruct (find_sub p x && find_sub r x) eqn:K.
    + left. exists [], x, t. split; [reflexivity|]. split; [now apply O|]. split; [now intros|reflexivity].
    + assert (NX : ~ offered p r x) by (rewrite <- O; congruence).
      destruct IH as [(pre & f & post & A & B & C & D)|[A B]].
      * left. exists (x :: pre), f, post. split; [now rewrite A|]. split; auto. split; auto. intros y [<-|H]; auto.
      * right. split; auto. intros y [<-|H]; auto.
  - destruct (split_slash name) as [[p r]|]; auto. right. exists p, r. exact S.
Qed.
Print Assumptions C57_resolve.

(** A file of another package is chosen when it contains both parts. *)
Example C57_case :
  let plugins := ["/opt/other_maps/share/maps/example.yaml"; "/opt/maps/example.yaml"]%string in
  resolveResourceName plugins "maps/example.yaml" = Ok "/opt/other_maps/share/maps/example.yaml"%string /\
  resolveResourceName plugins "maps/none.yaml" = Throw RuntimeError /\ resolveResourceName plugins "maps" = Throw InvalidArgument /\
  resolveResourceName plugins "maps/" = Ok "/opt/other_maps/share/maps/example.yaml"%string.
Proof. conj_vm. Qed.

(** ** C58 *)
Section Save.
Context {E : Env} {T : Text}.

(** What a message does to a saver that is not finished. *)
Definition converts (g : msg) (b : bundle) : Prop :=
  exists m, fromMessage g (new_map []) = Ret true m /\ toImageBundle m = Ok b.
Definition refused (g : msg) : Prop := exists m, fromMessage g (new_map []) = Ret false m.

Lemma save_finished g w : save_callback g (Saver true w) = Ret tt (Saver true w).
Proof. reflexivity. Qed.

Lemma save_list_finished gs w : mfor gs save_callback (Saver true w) = Ret tt (Saver true w).
Proof. induction gs; auto. Qed.

Lemma save_first w : forall gs,
  match mfor gs save_callback (Saver false w) with
  | Ret _ s => (s = Saver false w /\ Forall refused gs) \/
               (exists pre g post b, gs = pre ++ g :: post /\ Forall refused pre /\ converts g b /\ s = Saver true (w ++ [b]))
  | Exn _ s => s = Saver false w /\ exists pre g post, gs = pre ++ g :: post /\ Forall refused pre /\
                 ~ refused g /\ forall b, ~ converts g b
  | Flt _ => exists pre g post, gs = pre ++ g :: post /\ Forall refused pre /\ ~ refused g /\ forall b, ~ converts g b
  end.
Proof.
  induction gs as [|g t IH]; cbn [mfor].
  - left. auto.
  - assert (KO : (fromMessage g (new_map []) = fromMessage g (new_map [])) -> 
       (forall m, fromMessage g (new_map []) <> Ret false m) -> (forall b, ~ converts g b) ->
       exists pre h post, g :: t = pre ++ h :: post /\ Forall refused pre /\ ~ refused h /\ forall b, ~ converts h b).
    { intros _ A B. exists [], g, t. split; [reflexivity|]. split; [constructor|]. split; auto. intros [m K]. now apply (A m). }
    unfold save_callback at 1. cbn [s_finished s_written]. destruct (fromMessage g (new_map [])) as [[|] m|e m|f] eqn:F.
    + destruct (toImageBundle m) as [b|e|f] eqn:B.
      * rewrite save_list_finished. right. exists [], g, t, b. split; [reflexivity|]. split; [constructor|]. split; [exists m; auto|reflexivity].
      * split; auto. apply KO; auto; [discriminate|]. intros b (m' & H & H'). rewrite F in H. injection H as <-. congruence.
      * apply KO; auto; [discriminate|]. intros b (m' & H & H'). rewrite F in H. injection H as <-. congruence.
    + assert (RG : refused g) by (exists m; auto). destruct (mfor t save_callback (Saver false w)) as [u s|e s|f].
      * destruct IH as [[-> A]|(pre & h & post & b & -> & A & B)].
        -- left. auto.
        -- right. exists (g :: pre), h, post, b. split; [reflexivity|]. split; [now constructor|exact B].
      * destruct IH as (-> & pre & h & post & -> & A & B). split; auto. exists (g :: pre), h, post. split; [reflexivity|]. split; [now constructor|exact B].
      * destruct IH as (pre & h & post & -> & A & B). exists (g :: pre), h, post. split; [reflexivity|]. split; [now constructor|exact B].
    + split; auto. apply KO; auto; [discriminate|]. intros b (m' & H & H'). congruence.
    + apply KO; auto; [discriminate|]. intros b (m' & H & H'). congruence.
Qed.

End Save.

(** After any messages that are refused, the first one that converts is saved,
    and nothing after it, whatever it is. A message that neither converts nor is
    refused stops the node before anything is written. *)
Theorem C58_once : forall (E : Env) (T : Text) pre g post b, Forall refused pre -> converts g b ->
  mfor (pre ++ g :: post) save_callback (Saver false []) = Ret tt (Saver true [b]).
Proof.
  intros E T pre g post b HP (m & F & B). induction HP as [|x pre [m' K] HP IH]; cbn [app mfor].
  - unfold save_callback at 1. cbn [s_finished s_written]. rewrite F, B. apply save_list_finished.
  - unfold save_callback at 1. cbn [s_finished]. rewrite K. exact IH.
Qed.
Print Assumptions C58_once.

Theorem C58_only : forall (E : Env) (T : Text) gs s, mfor gs save_callback (Saver false []) = Ret tt s ->
  (s_finished s = false /\ s_written s = [] /\ Forall refused gs) \/
  (s_finished s = true /\ exists pre g post b, gs = pre ++ g :: post /\ Forall refused pre /\ converts g b /\ s_written s = [b]).
Proof.
  intros E T gs s H. pose proof (save_first [] gs) as K. rewrite H in K. destruct K as [[-> K]|(pre & g & post & b & A & B & C & ->)].
  - left. auto.
  - right. split; auto. exists pre, g, post, b. auto.
Qed.
Print Assumptions C58_only.

Theorem C58_stopped : forall (E : Env) (T : Text) gs e s, mfor gs save_callback (Saver false []) = Exn e s ->
  s_finished s = false /\ s_written s = [] /\
  exists pre g post, gs = pre ++ g :: post /\ Forall refused pre /\ ~ refused g /\ forall b, ~ converts g b.
Proof.
  intros E T gs e s H. pose proof (save_first [] gs) as K. rewrite H in K. destruct K as [-> K]. auto.
Qed.
Print Assumptions C58_stopped.

(** The sample's message, one with an array missing, and one without layer b. *)
Definition message (m : cmap) : msg :=
  match toMessage m with Ok g => g | _ => Msg (0,0) "" 0 (0,0)%Q (0,0)%Q [] [] [] (0,0) end.
Definition cut (g : msg) : msg :=
  Msg (g_stamp g) (g_frame g) (g_resn g) (g_length g) (g_position g) (g_layers g) (g_basic g) (firstn 1 (g_data g)) (g_index g).
Definition only_a (g : msg) : msg :=
  Msg (g_stamp g) (g_frame g) (g_resn g) (g_length g) (g_position g) ["a"%string] (g_basic g) (firstn 1 (g_data g)) (g_index g).

Example C58_case :
  match mfor [cut (message sample); only_a (message sample); message sample] (save_callback (E := binary64 BWrap) (T := plain)) (Saver false []) with
  | Ret _ s => s_finished s = true /\ map (fun b => map fst (b_files b)) (s_written s) = [["a.png"%string]]
  | _ => False
  end.
Proof. conj_vm. Qed.

(** ** C59 *)

(** A message with one fitting array of costs per name, a start index in range and
    a valid time. *)
Definition carries (n : idx) (g : msg) : Prop :=
  length (g_layers g) = length (g_data g) /\ (forall a, In a (g_data g) -> fits n a /\ forall v, In v (a_data a) -> 0 <= v <= 255) /\
  in_range n (g_index g) /\ 0 <= to_nsec (g_stamp g) < 4294967296 * 1000000000.

(** It describes n0 x n1 cells. *)
Definition proper (n : idx) (g : msg) : Prop :=
  positive g /\ cells_for (g_resn g) (fst (g_length g)) (fst n) /\ cells_for (g_resn g) (snd (g_length g)) (snd n) /\ carries n g.

(** The grid shows layer l of the message, mirrored in both directions. *)
Definition presents (n : idx) (g : msg) (l : string) (o : occ) : Prop :=
  o_frame o = g_frame g /\ to_nsec (o_stamp o) = to_nsec (g_stamp g) /\ (o_width o, o_height o) = n /\ (o_resn o == rne 24 (g_resn g))%Q /\
  Z.of_nat (length (o_data o)) = fst n * snd n /\
  exists a, last_with l (combine (g_layers g) (g_data g)) = Some a /\
    forall i v, in_range n i -> array_at n a i v ->
      nth_error (o_data o) (Z.to_nat (fst n * snd n - 1 - (fst i + snd i * fst n))) = Some (occupancy v).

(** Its origin is the lower corner of the described rectangle. *)
Definition shows (n : idx) (g : msg) (l : string) (o : occ) : Prop :=
  presents n g l o /\
  (fst (o_origin o) == fst (g_position g) - inject_Z (fst n) * g_resn g / 2)%Q /\
  (snd (o_origin o) == snd (g_position g) - inject_Z (snd n) * g_resn g / 2)%Q.

Lemma last_with_In l : forall las, In l (map fst las) -> exists a, last_with l las = Some a.
Proof.
  induction las as [|[k a] t IH]; intros H; [easy|]. cbn [last_with]. destruct (last_with l t) as [b|] eqn:K; [eauto|].
  destruct H as [H|H]; [cbn in H; subst; rewrite String.eqb_refl; eauto|]. destruct (IH H). congruence.
Qed.

Lemma last_with_value l las a : last_with l las = Some a -> In (l, a) las.
Proof.
  induction las as [|[k b] t IH]; cbn [last_with]; [discriminate|]. destruct (last_with l t); [intros H; right; auto|].
  destruct (String.eqb_spec l k); [|discriminate]. intros H. injection H as ->. subst. now left.
Qed.

Lemma In_appended l : forall names ls, In l (appended ls names) <-> In l ls \/ In l names.
Proof.
  induction names as [|k t IH]; intros ls; cbn [appended In]; [tauto|]. rewrite IH. destruct (smem k ls) eqn:S.
  - apply smem_In in S. split; [tauto|]. intros [H|[->|H]]; auto.
  - rewrite in_app_iff. cbn [In]. tauto.
Qed.

Section Relay.
Context {E : Env}.

(** The grids made of a message of n0 x n1 cells, for any rounding. *)
Lemma proper_any (RN : rnd_nonneg) n g : positive g -> cells_of (g_length g) (g_resn g) = n -> carries n g ->
  exists m, fromMessage g (new_map []) = Ret true m /\ reg_ok' m /\ stamp_ok m /\
  size m = n /\ in_range (size m) (start m) /\ layers m = appended [] (g_layers g) /\
  forall l old, In l (g_layers g) -> exists o, toOccupancyGrid m l old = Ok o /\ presents n g l o /\
    o_origin o = (fsub (fst (g_position g)) (fmul (1#2) (fmul (inject_Z (fst n)) (g_resn g))),
                  fsub (snd (g_position g)) (fmul (1#2) (fmul (inject_Z (snd n)) (g_resn g)))).
Proof.
  intros P N (LE & FT & IR & ST).
  assert (R0 : reg_ok' (new_map [])) by (split; [apply new_map_reg; constructor|cbn; lia]).
  destruct (outcomes_any RN g (new_map []) n R0 P N) as [_ K2]. destruct (K2 LE) as [_ K3].
  destruct K3 as (m & F & R & A1 & A2 & A3 & A4 & A5 & A6 & A7 & A8 & A9 & V & _).
  { intros l a H. apply in_combine_r in H. now apply FT. }
  exists m. split; [exact F|].
  assert (G : in_range (size m) (start m)) by (rewrite A3, A7; exact IR).
  assert (S : stamp_ok m) by (unfold stamp_ok; rewrite A2; exact ST).
  split; auto. split; auto. split; auto. split; auto. split; [exact A9|].
  intros l old Hl. assert (HL : has_layer m l).
  { destruct R as [R _]. apply BaseLemmas.aget_In, (r_same _ R). rewrite A9. apply In_appended. auto. }
  destruct (occ_run m l old G (proj1 R) S HL) as (d & O & L & VD). eexists. split; [exact O|].
  rewrite A3 in *. unfold presents. cbn [o_frame o_stamp o_width o_height o_resn o_origin o_data].
  split; [|now rewrite A5, A6].
  split; [exact A1|]. split. { rewrite <- A2. unfold to_nsec at 1. cbn [fst snd]. rewrite (Z.div_mod (stamp m) 1000000000) at 3 by lia. ring. }
  split; [now destruct n|]. split; [unfold rnd32; now rewrite A4|]. split; [exact L|].
  destruct (last_with_In l (combine (g_layers g) (g_data g))) as [a Ha]. { rewrite map_fst_combine; auto. }
  exists a. split; auto. intros i v Hi Hv.
  assert (BV : 0 <= v <= 255).
  { unfold array_at in Hv. apply nth_error_In in Hv. apply last_with_value, in_combine_r, FT in Ha as [_ Ha]. auto. }
  rewrite <- (C51_values v BV). rewrite <- (VD i v Hi).
  - f_equal. f_equal. unfold slot, linear_index. ring.
  - now apply (V l a Ha i v Hi).
Qed.

(** What the relays need to know about a message. *)
Definition converted (S : string -> occ -> Prop) (g : msg) : Prop :=
  exists m, fromMessage g (new_map []) = Ret true m /\ reg_ok' m /\ stamp_ok m /\ in_range (size m) (start m) /\
  layers m = appended [] (g_layers g) /\
  forall l old, In l (g_layers g) -> exists o, toOccupancyGrid m l old = Ok o /\ S l o.

Lemma proper_map (X : Exact E) n g : proper n g -> converted (shows n g) g.
Proof.
  intros (P & C0 & C1 & CA). pose proof P as (P0 & P1 & P2).
  assert (N : cells_of (g_length g) (g_resn g) = n).
  { unfold cells_of. rewrite (cells_exact E X _ _ _ P2 P0 C0), (cells_exact E X _ _ _ P2 P1 C1). now destruct n. }
  destruct (proper_any (exact_nonneg E X) n g P N CA) as (m & F & R & S & SZ & G & L & OC). exists m.
  split; auto. split; auto. split; auto. split; auto. split; auto. intros l old Hl. destruct (OC l old Hl) as (o & O & PR & OO).
  exists o. split; auto. split; auto.
  assert (OX : forall a b, (fsub a (fmul (1#2) b) == a - b / 2)%Q).
  { intros a b. unfold fsub, fmul. rewrite (X _), (X _). field. }
  rewrite OO. split; cbn [fst snd]; rewrite OX, (fmul_eq X); reflexivity.
Qed.

Lemma relay_layers S g : converted S g -> forall ls r, (forall l, In l ls -> In l (g_layers g)) -> r_advertised r = r_publishers r ->
  exists r' news, mfor ls (relay_layer g) r = Ret tt r' /\ r_advertised r' = r_publishers r' /\
    r_publishers r' = appended (r_publishers r) ls /\ r_published r' = r_published r ++ news /\
    Forall2 (fun l lo => fst lo = l /\ S l (snd lo)) ls news.
Proof.
  intros (m & F & _ & _ & _ & _ & OC).
  induction ls as [|l t IH]; intros r HL AP.
  - exists r, []. rewrite app_nil_r. split; [reflexivity|]. split; [auto|]. split; [reflexivity|]. split; [reflexivity|constructor].
  - destruct (OC l [] (HL l (or_introl eq_refl))) as (o & O & SH).
    cbn [mfor]. unfold relay_layer at 1. rewrite F, O.
    match goal with |- context [mfor t _ ?x] => set (r1 := x) end.
    assert (P1 : r_publishers r1 = if smem l (r_publishers r) then r_publishers r else r_publishers r ++ [l])
      by (unfold r1; cbn [r_publishers]; now destruct (smem l (r_publishers r))).
    assert (P2 : r_published r1 = r_published r ++ [(l, o)])
      by (unfold r1; cbn [r_published]; now destruct (smem l (r_publishers r))).
    destruct (IH r1) as (r' & news & H & A & B & C & D).
    { intros x Hx. apply HL. now right. } { unfold r1. cbn [r_advertised r_publishers]. destruct (smem l (r_publishers r)); cbn; congruence. }
    exists r', ((l, o) :: news). split; [exact H|]. split; auto. split; [cbn [appended]; now rewrite B, P1|].
    split; [rewrite C, P2, <- app_assoc; reflexivity|]. constructor; auto.
Qed.

Lemma appended_app a b : forall ls, appended ls (a ++ b) = appended (appended ls a) b.
Proof. induction a as [|k t IH]; intros ls; cbn [app appended]; auto. Qed.

Lemma published_any (S : idx -> msg -> string -> occ -> Prop) ngs : forall r,
  Forall (fun ng => converted (S (fst ng) (snd ng)) (snd ng)) ngs -> r_advertised r = r_publishers r ->
  exists r' news, mfor (map snd ngs) relay_callback r = Ret tt r' /\
    r_advertised r' = r_publishers r' /\
    r_publishers r' = appended (r_publishers r) (flat_map (fun ng => g_layers (snd ng)) ngs) /\
    r_published r' = r_published r ++ news /\
    Forall2 (fun ngl lo => fst lo = snd ngl /\ S (fst (fst ngl)) (snd (fst ngl)) (snd ngl) (snd lo))
      (flat_map (fun ng => map (pair ng) (g_layers (snd ng))) ngs) news.
Proof.
  induction ngs as [|[n g] t IH]; intros r HP AP.
  - exists r, []. rewrite app_nil_r. split; [reflexivity|]. split; [auto|]. split; [reflexivity|]. split; [reflexivity|constructor].
  - inversion HP as [|? ? P1 P2]; subst. cbn [fst snd] in P1. cbn [map mfor snd].
    destruct (relay_layers (S n g) g P1 (g_layers g) r (fun l H => H) AP) as (r1 & new1 & H1 & A1 & B1 & C1 & D1).
    destruct (IH r1 P2 A1) as (r2 & new2 & H2 & A2 & B2 & C2 & D2).
    exists r2, (new1 ++ new2). unfold relay_callback at 1. rewrite H1. split; [exact H2|]. split; auto.
    split; [cbn [flat_map snd]; now rewrite appended_app, B2, B1|]. split; [now rewrite C2, C1, app_assoc|].
    cbn [flat_map snd]. apply Forall2_app; auto. clear -D1. induction D1; cbn [map]; constructor; auto.
Qed.

(** A layer that the map lacks. *)
Lemma occ_missing m l : stamp_ok m -> in_range (size m) (start m) -> ~ has_layer m l -> toOccupancyGrid m l [] = Throw OutOfRange.
Proof.
  intros [S0 S1] G NL. unfold toOccupancyGrid, from_nsec. assert (stamp m / 1000000000 < 4294967296) by (apply Z.div_lt_upper_bound; lia).
  destruct (Z.ltb_spec (stamp m / 1000000000) 4294967296); [|lia]. cbn [rbind].
  rewrite map_visits_ok by exact G. cbn [rbind]. destruct (visit_list (size m) (start m)) as [|i vs] eqn:V.
  - pose proof G as GS. apply (visit_list_In _ _ _ GS) in GS. rewrite V in GS. destruct GS.
  - cbn [mfor]. unfold occ_cell at 1, bind at 1. unfold at_ at 1.
    destruct (aget (data m) l) as [d|] eqn:D; [|reflexivity]. exfalso. apply NL. now exists d.
Qed.

Lemma malformed_any (RN : rnd_nonneg) n g r l ls : positive g -> cells_of (g_length g) (g_resn g) = n -> 0 < fst n -> 0 < snd n ->
  0 <= to_nsec (g_stamp g) < 4294967296 * 1000000000 ->
  length (g_layers g) <> length (g_data g) -> g_layers g = l :: ls ->
  exists r', relay_callback g r = Exn OutOfRange r' /\ r_published r' = r_published r /\ r_publishers r' = appended (r_publishers r) [l].
Proof.
  intros P C N0 N1 ST NE GL.
  assert (R0 : reg_ok' (new_map [])) by (split; [apply new_map_reg; constructor|cbn; lia]).
  destruct (outcomes_any RN g (new_map []) n R0 P C) as [K1 _].
  destruct (K1 NE) as (m & F & A1 & A2 & A3 & A4 & A5 & A6 & A7 & A8 & A9 & _).
  unfold relay_callback. rewrite GL. cbn [mfor]. unfold relay_layer at 1. rewrite F.
  rewrite occ_missing.
  - eexists. split; [reflexivity|]. cbn [appended]. destruct (smem l (r_publishers r)); auto.
  - unfold stamp_ok. now rewrite A2.
  - rewrite A3, A6; split; cbn; lia.
  - intros H. apply A9 in H as [d' H]. discriminate.
Qed.

Lemma turn_any S g s : converted S g ->
  let names := appended [] (g_layers g) in
  let chosen := match names with [x] => x | _ => v_layer s end in
  (In chosen names -> exists o, srelay_turn (Some g) s = Ret tt (SRelay chosen (v_published s ++ [o])) /\ S chosen o) /\
  (~ In chosen names -> srelay_turn (Some g) s = Exn OutOfRange (SRelay chosen (v_published s))).
Proof.
  intros (m & F & R & ST & G & L & OC) names chosen. unfold srelay_turn. rewrite F, L. fold names. fold chosen. split.
  - intros H. apply In_appended in H as [[]|H]. destruct (OC chosen [] H) as (o & -> & SH). eauto.
  - intros H. rewrite occ_missing; auto. intros [d D]. apply H. unfold names. rewrite <- L. apply (r_same _ (proj1 R)), BaseLemmas.aget_In. eauto.
Qed.

End Relay.

(** Every layer listed by a message is published once, in order, and every name
    is advertised once, when first seen; no publisher is removed. *)
Theorem C59_published : forall (E : Env), Exact E -> forall ngs r,
  Forall (fun ng => proper (fst ng) (snd ng)) ngs -> r_advertised r = r_publishers r ->
  exists r' news, mfor (map snd ngs) relay_callback r = Ret tt r' /\
    r_advertised r' = r_publishers r' /\
    r_publishers r' = appended (r_publishers r) (flat_map (fun ng => g_layers (snd ng)) ngs) /\
    r_published r' = r_published r ++ news /\
    Forall2 (fun ngl lo => fst lo = snd ngl /\ shows (fst (fst ngl)) (snd (fst ngl)) (snd ngl) (snd lo))
      (flat_map (fun ng => map (pair ng) (g_layers (snd ng))) ngs) news.
Proof.
  intros E X ngs r HP. apply published_any. revert HP. apply Forall_impl. intros [n g]. apply (proper_map X).
Qed.
Print Assumptions C59_published.

(** A message with more or fewer arrays than names makes the callback throw at
    the first name: nothing is published, but the name stays advertised. *)
Theorem C59_malformed : forall (E : Env), Exact E -> forall n g r l ls, positive g ->
  cells_for (g_resn g) (fst (g_length g)) (fst n) -> cells_for (g_resn g) (snd (g_length g)) (snd n) -> 0 < fst n -> 0 < snd n ->
  0 <= to_nsec (g_stamp g) < 4294967296 * 1000000000 ->
  length (g_layers g) <> length (g_data g) -> g_layers g = l :: ls ->
  exists r', relay_callback g r = Exn OutOfRange r' /\ r_published r' = r_published r /\ r_publishers r' = appended (r_publishers r) [l].
Proof.
  intros E X n g r l ls P C0 C1 N0 N1. apply (malformed_any (exact_nonneg E X) n); auto. pose proof P as (P0 & P1 & P2).
  unfold cells_of. rewrite (cells_exact E X _ _ _ P2 P0 C0), (cells_exact E X _ _ _ P2 P1 C1). now destruct n.
Qed.
Print Assumptions C59_malformed.

Example C59_case :
  match mfor [message sample; only_a (message sample)] (relay_callback (E := exact_wrap)) (Relay [] [] []) with
  | Ret _ r => r_advertised r = ["a"; "b"]%string /\ map fst (r_published r) = ["a"; "b"; "a"]%string /\
               map (fun lo => hd 0 (o_data (snd lo))) (r_published r) = [7; 46; 7]
  | _ => False
  end.
Proof. conj_vm. Qed.

(** ** C65 *)

(** The relay of the service publishes the response's only layer if there is one,
    otherwise the layer of the last such response, or the configured one. *)
Theorem C65_turn : forall (E : Env), Exact E -> forall n g s, proper n g ->
  let names := appended [] (g_layers g) in
  let chosen := match names with [x] => x | _ => v_layer s end in
  (In chosen names -> exists o, srelay_turn (Some g) s = Ret tt (SRelay chosen (v_published s ++ [o])) /\ shows n g chosen o) /\
  (~ In chosen names -> srelay_turn (Some g) s = Exn OutOfRange (SRelay chosen (v_published s))).
Proof. intros E X n g s P. apply (turn_any (shows n g)), (proper_map X), P. Qed.
Print Assumptions C65_turn.

(** So the configured layer is not what is published once a response with a
    single layer has come in. *)
Theorem C65_configured_refuted : exists g1 g2 s o1 o2, v_layer s = "b"%string /\ In "b"%string (g_layers g2) /\
  mfor [Some g1; Some g2] (srelay_turn (E := exact_wrap)) s = Ret tt (SRelay "a" [o1; o2]) /\
  nth_error (o_data o2) 0 = Some 7 /\
  match srelay_turn (E := exact_wrap) (Some g2) s with Ret _ s' => map (fun o => nth_error (o_data o) 0) (v_published s') = [Some 46] | _ => False end.
Proof.
  set (g1 := only_a (message sample)). set (g2 := message sample). set (s := SRelay "b" []).
  assert (K : match mfor [Some g1; Some g2] (srelay_turn (E := exact_wrap)) s with
     | Ret _ (SRelay l [o1; o2]) => l = "a"%string /\ nth_error (o_data o2) 0 = Some 7 | _ => False end) by (vm_compute; auto).
  destruct (mfor [Some g1; Some g2] (srelay_turn (E := exact_wrap)) s) as [[] [l [|o1 [|o2 [|]]]]| |] eqn:H; try contradiction. destruct K as [-> K].
  exists g1, g2, s, o1, o2. split; [reflexivity|]. split; [vm_compute; auto|]. split; [exact H|]. split; [exact K|]. vm_compute. reflexivity.
Qed.
Print Assumptions C65_configured_refuted.

(** ** C66 *)

(** The map's lengths are the products of its cell counts and its resolution, as
    setGeometry computes them; the counts are positive and below 2^22. *)
Definition sized (E : Env) (m : cmap) : Prop :=
  (0 < resn m)%Q /\ 1 <= fst (size m) <= 2 ^ 22 /\ 1 <= snd (size m) <= 2 ^ 22 /\ in_range (size m) (start m) /\
  veq (len m) (rnd (inject_Z (fst (size m)) * resn m), rnd (inject_Z (snd (size m)) * resn m))%Q.

(** One rounded product divided by one of its factors. *)
Lemma double_count (E : Env) (X : real_or_double E) r n x : (0 < r)%Q -> 1 <= n <= 2 ^ 22 -> (x == rnd (inject_Z n * r))%Q ->
  (0 < x)%Q /\ Qround_away (fdiv x r) = n.
Proof.
  intros RP Hn XE. set (N := inject_Z n) in *.
  assert (ER : forall q, (0 <= q)%Q -> (Qabs (rnd q - q) <= (1 # 9007199254740992) * q)%Q).
  { intros q Hq. destruct X as [X|[p ->]].
    - rewrite (X q). assert (q - q == 0)%Q as -> by ring. change (Qabs 0) with 0%Q. apply Qmult_le_0_compat; lra.
    - cbn [rnd binary64]. pose proof (rne_error 53 q ltac:(lia)) as K. change (pow2 (- (53))) with (1 # 9007199254740992)%Q in K.
      rewrite (Qabs_pos q) in K by assumption. exact K. }
  assert (N1 : (1 <= N)%Q) by (change 1%Q with (inject_Z 1); unfold N; rewrite <- Zle_Qle; lia).
  assert (N2 : (N <= 4194304)%Q) by (change 4194304%Q with (inject_Z (2 ^ 22)); unfold N; rewrite <- Zle_Qle; lia).
  assert (NS : (0 < N * r)%Q) by (apply Qmult_lt_0_compat; lra).
  pose proof (ER (N * r)%Q ltac:(lra)) as E1. rewrite <- XE in E1. apply Qabs_Qle_condition in E1 as [E1 E1'].
  assert (XP : (0 < x)%Q) by lra. split; auto.
  assert (YL : (N * (1 - (1 # 9007199254740992)) <= x / r)%Q). { apply Qle_shift_div_l; auto. lra. }
  assert (YU : (x / r <= N * (1 + (1 # 9007199254740992)))%Q). { apply Qle_shift_div_r; auto. lra. }
  unfold fdiv. set (y := (x / r)%Q) in *. pose proof (ER y ltac:(lra)) as K.
  apply Qabs_Qle_condition in K as [K1 K2]. set (z := rnd y) in *. clearbody z y.
  apply Qround_away_unique; fold N; clearbody N; lra.
Qed.

(** The round trip through a message also in double arithmetic. *)
Theorem C47_double : forall (E : Env), real_or_double E -> forall m, sized E m -> reg_ok' m -> stamp_ok m ->
  fst (start m) < 65536 -> snd (start m) < 65536 ->
  exists g m', toMessage m = Ok g /\ fromMessage g (new_map []) = Ret true m' /\ same_map m m' /\ sized E m' /\ reg_ok' m'.
Proof.
  intros E X m (RP & N0 & N1 & IR & L0 & L1) R S B0 B1. cbn [fst snd] in L0, L1.
  destruct (double_count E X _ _ _ RP N0 L0) as [P0 C0]. destruct (double_count E X _ _ _ RP N1 L1) as [P1 C1].
  destruct (message_round (rod_nonneg E X) m R S P0 P1 RP)
    as (g & m' & T & F & K1 & K2 & K3 & K4 & K5 & K6 & K7 & K8 & K9 & K10).
  { unfold cells_of. rewrite C0, C1. now destruct (size m). }
  exists g, m'. split; auto. split; auto.
  assert (ST : start m' = start m). { rewrite K10. destruct IR as [I0 I1]. rewrite !Z.mod_small by lia. now destruct (start m). }
  split.
  - unfold same_map. rewrite K6. split; [exact K1|]. split; [exact K2|]. split; [exact K3|]. split; [exact K4|]. split; [exact K5|].
    split. { split; cbn [fst snd]; symmetry; assumption. } split; [exact K7|]. split; [exact K8|]. split; [exact K9|exact ST].
  - split.
    + unfold sized. rewrite K7, K9, ST, K6. split; [exact RP|]. split; [exact N0|]. split; [exact N1|]. split; [exact IR|]. split; reflexivity.
    + pose proof (pres_fromMessage (rod_nonneg E X) g (new_map [])) as PF. rewrite F in PF. apply PF.
      split; [apply new_map_reg; constructor|cbn; lia].
Qed.
Print Assumptions C47_double.

(** A published map, saved by one node and loaded by another: the costs that the
    second node publishes. *)
Theorem C66_pipeline : forall (E : Env) (C : Cv) (T : Text) more, gray_range C -> gray_neutral C -> text_exact T ->
  (Exact E /\ more = []) \/ ((exists p, E = binary64 p) /\ more = short) ->
  forall m location plugins, sized E m -> reg_ok' m -> stamp_ok m -> fst (start m) < 65536 -> snd (start m) < 65536 -> bytes m ->
  exists g b m' g', toMessage m = Ok g /\ save_callback g (Saver false []) = Ret tt (Saver true [b]) /\
    load_image_bundle [(location, b)] plugins location = Ok (m', g') /\ toMessage m' = Ok g' /\
    frame m' = frame m /\ size m' = size m /\ Permutation (layers m') (layers m) /\ ascending (layers m') /\
    forall l i v, in_range (size m) i -> value_at m l i v -> value_at m' l i (reloaded more v).
Proof.
  intros E C T more GR GN TX MO m loc plugins SZ R S B0 B1 BY.
  assert (X : real_or_double E) by (destruct MO as [[X _]|[X _]]; [now left|now right]).
  destruct (C47_double E X m SZ R S B0 B1) as (g & m1 & TM & FM & (L1 & D1 & _ & F1 & _ & _ & RS1 & _ & SZ1 & _) & (RP & N0 & N1 & _) & R1).
  assert (VE : forall l i v, value_at m1 l i v <-> value_at m l i v) by (intros; unfold value_at; now rewrite D1).
  assert (EX : extra E more). { destruct MO as [[X' ->]|[[p ->] ->]]; intros v Hv; [cbn; now apply flipped_exact|now apply flipped_double]. }
  assert (R0 : reg_ok' (new_map [])) by (split; [apply new_map_reg; constructor|cbn; lia]).
  destruct (bundle_round E C T more X GR GN TX EX) with (m := m1) (m0 := new_map [])
    as (b & m' & ls & TB & FB & A1 & A2 & A3 & A4 & A5 & A6 & A7 & A8 & A9 & A10 & V & _); auto.
  { destruct MO as [[_ ->]|[_ ->]]; auto. }
  { apply R1. } { intros l i v H. apply VE in H. now apply (BY l i). }
  pose proof (pres_fromImageBundle (rod_nonneg E X) (Some b) (new_map []) R0) as R2. rewrite FB in R2. cbn [post] in R2.
  assert (S2 : stamp_ok m') by (unfold stamp_ok; rewrite A6; lia).
  pose proof (toMessage_ok m' (proj1 R2) S2) as TM2.
  match type of TM2 with _ = Ok ?x => exists g, b, m', x; set (g' := x) in * end.
  assert (AL : appended [] ls = ls).
  { assert (ND : NoDup ls) by (eapply Permutation_NoDup; [symmetry; exact A9|apply R1]).
    assert (G : forall ks acc, NoDup (acc ++ ks) -> appended acc ks = acc ++ ks).
    { induction ks as [|k t IH]; intros acc H; cbn [appended]; [now rewrite app_nil_r|]. destruct (smem k acc) eqn:M.
      - apply smem_In in M. apply NoDup_remove_2 in H. exfalso. apply H. apply in_or_app. now left.
      - rewrite IH, <- app_assoc; [reflexivity|]. now rewrite <- app_assoc. }
    now rewrite G. }
  cbn [layers new_map] in A8. rewrite AL in A8.
  split; [exact TM|]. split. { unfold save_callback. cbn [s_finished s_written]. rewrite FM, TB. reflexivity. }
  split. { unfold load_image_bundle, amem. cbn [aget]. rewrite String.eqb_refl. cbn [rbind aget]. rewrite String.eqb_refl, FB, TM2. reflexivity. }
  split; [exact TM2|]. split; [congruence|]. split; [congruence|]. split; [rewrite A8, <- L1; exact A9|]. split; [now rewrite A8|].
  intros l i v Hi Hv. apply V; [now rewrite SZ1|now apply VE].
Qed.
Print Assumptions C66_pipeline.

(** The sample through the whole pipeline in doubles. *)
Example C66_case :
  let m := after (at_set "b" (0, 0) 200 ;;; at_set "b" (0, 1) 255 ;;; at_set "b" (1, 0) 43)%mon sample in
  match save_callback (E := binary64 BWrap) (T := plain) (message m) (Saver false []) with
  | Ret _ (Saver true [b]) =>
      match load_image_bundle (E := binary64 BWrap) (C := opencv true) [("x.yaml"%string, b)] [] "x.yaml" with
      | Ok (m', g') => g_layers g' = ["a"; "b"]%string /\ map (fun i => at_ m' "b" i) [(0, 0); (0, 1); (1, 0)] = [Ok 199; Ok 255; Ok 44]
      | _ => False
      end
  | _ => False
  end.
Proof. conj_vm. Qed.
