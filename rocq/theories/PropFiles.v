(** Property C98: saving and loading bundles on a file system, where some or all
    of the files cannot be written. *)
From Coq Require Import ZArith QArith Qround Qabs Ascii String List Bool Lia Lqa Sorted Permutation.
From Verif Require Import Base Mat GridMapMath GridIter CostMap Converter Bundles FileSys Spec ConvertSpec BaseLemmas GeoLemmas CoreProofs CoreProofs2 CoreFinal IterProofs MoveProofs AddDataProofs FloatLemmas FloatMono MessageProofs PropMessage PropGrid PropImage PropBundle PropLoad PropRos RegProofs Samples.
Import ListNotations.
Open Scope Z_scope.

(** ** Specification *)

(** [d] is the path [f] up to its last slash; doubled slashes are left out. *)
Inductive folder : string -> string -> Prop :=
| folder_none f : slash_free f -> folder f ""
| folder_some d b : slash_free b -> (forall e, d <> (e ++ "/")%string) -> folder (d ++ "/" ++ b) (d ++ "/").

(** The name starts with a slash. *)
Definition rooted (l : string) : Prop := exists r, l = ("/" ++ r)%string.

(** The image in a file, if it is one. *)
Definition image_in (c : option content) : option png :=
  match c with Some (FPng p) => Some p | _ => None end.

(** ** Paths *)

Lemma append_assoc a b c : ((a ++ b) ++ c = a ++ b ++ c)%string.
Proof. induction a as [|x a IH]; cbn; congruence. Qed.

Lemma append_empty a : (a ++ "" = a)%string.
Proof. induction a as [|x a IH]; cbn; congruence. Qed.

Lemma append_inj a : forall b c, (a ++ b = a ++ c)%string -> b = c.
Proof. induction a as [|x a IH]; intros b c H; [exact H|]. injection H as H. auto. Qed.

Lemma before_last_free s : slash_free s -> before_last s = None.
Proof.
  induction s as [|c s IH]; intros H; [reflexivity|]. apply slash_free_cons in H as [N H]. cbn [before_last]. rewrite (IH H).
  destruct (Ascii.eqb_spec c "/"); congruence.
Qed.

Lemma before_last_some d b : slash_free b -> before_last (d ++ "/" ++ b) = Some d.
Proof.
  intros H. induction d as [|c d IH].
  - change ("" ++ "/" ++ b)%string with (String "/" b). cbn [before_last]. now rewrite (before_last_free b H).
  - change (String c d ++ "/" ++ b)%string with (String c (d ++ "/" ++ b)). cbn [before_last]. now rewrite IH.
Qed.

Lemma strip_id d : (forall e, d <> (e ++ "/")%string) -> strip d = d.
Proof.
  induction d as [|c d IH]; intros H; [reflexivity|]. cbn [strip].
  rewrite IH by (intros e ->; apply (H (String c e)); reflexivity).
  destruct d; [|reflexivity]. destruct (Ascii.eqb_spec c "/"); auto. subst. exfalso. apply (H ""%string). reflexivity.
Qed.

Lemma ends_slash_not d : (forall e, d <> (e ++ "/")%string) -> ends_slash d = false.
Proof.
  induction d as [|c d IH]; intros H; [reflexivity|]. cbn [ends_slash].
  destruct d; [destruct (Ascii.eqb_spec c "/"); auto; subst; exfalso; apply (H ""%string); reflexivity|].
  apply IH. intros e HE. apply (H (String c e)). cbn. now rewrite HE.
Qed.

Lemma join_folder f d n : folder f d -> ~ rooted n -> join (parent_path f) n = (d ++ n)%string.
Proof.
  intros F NR. assert (S : starts_slash n = false).
  { destruct n as [|c n]; auto. cbn. destruct (Ascii.eqb_spec c "/"); auto. subst. exfalso. apply NR. now exists n. }
  destruct F as [f H|d b H N]; unfold parent_path.
  - now rewrite (before_last_free f H).
  - rewrite (before_last_some d b H), (strip_id d N). destruct d as [|c d].
    + unfold join. rewrite S. reflexivity.
    + unfold join. rewrite S, (ends_slash_not _ N). cbn [orb]. now rewrite append_assoc.
Qed.

(** ** Saving *)

Section Save.
Context {E : Env} {T : Text}.

Lemma rooted_png l : ~ rooted l -> ~ rooted (png_name l).
Proof.
  intros N [r H]. apply N. destruct l as [|c l]; [discriminate|]. injection H as -> _. now exists l.
Qed.

Lemma write_at W path c fs q :
  write W path c fs = Ret tt (if W path then (fun x => if String.eqb x path then Some c else fs x) else fs) /\
  (if W path then (fun x => if String.eqb x path then Some c else fs x) else fs) q =
    (if String.eqb q path then if W q then Some c else fs q else fs q).
Proof.
  split; [reflexivity|]. destruct (String.eqb_spec q path) as [->|N]; destruct (W path) eqn:K; auto.
  - now rewrite String.eqb_refl.
  - destruct (String.eqb_spec q path); congruence.
Qed.

Lemma save_layers W f d m : reg_ok m -> folder f d -> forall ls fs, NoDup ls -> (forall l, In l ls -> In l (layers m) /\ ~ rooted l) ->
  exists fs', mfor ls (fun l => bind (lift (layer_file m l)) (fun x => write W (join (parent_path f) (fst x)) (FPng (snd x)))) fs = Ret tt fs' /\
    (forall l, In l ls -> fs' (d ++ png_name l)%string =
       if W (d ++ png_name l)%string then Some (FPng (picture (matrix_of m l))) else fs (d ++ png_name l)%string) /\
    (forall q, (forall l, In l ls -> q <> (d ++ png_name l)%string) -> fs' q = fs q).
Proof.
  intros R F. induction ls as [|l t IH]; intros fs ND HL.
  - exists fs. split; [reflexivity|]. split; [easy|reflexivity].
  - inversion ND as [|? ? N1 N2]; subst. destruct (HL l (or_introl eq_refl)) as [Hl NR].
    assert (LF : layer_file m l = Ok (png_name l, picture (matrix_of m l))).
    { apply (r_same _ R), BaseLemmas.aget_In in Hl as [x Hx]. unfold layer_file, get, matrix_of. rewrite Hx. cbn [rbind].
      destruct (r_mat _ R _ _ Hx) as (A & B & C). now rewrite (layer_png_ok E m x A B C). }
    cbn [mfor]. unfold bind at 1. rewrite LF. cbn [lift fst snd]. rewrite (join_folder f d _ F (rooted_png l NR)).
    pose proof (fun q => proj2 (write_at W (d ++ png_name l) (FPng (picture (matrix_of m l))) fs q)) as WA.
    unfold write at 1. set (fs1 := if W (d ++ png_name l)%string then _ else _) in *.
    destruct (IH fs1 N2) as (fs' & A & B & C). { intros l' H. apply HL. now right. }
    exists fs'. split; [exact A|]. split.
    + intros l' [<-|H].
      * rewrite C. { rewrite WA, String.eqb_refl. reflexivity. }
        intros l' H K. apply append_inj, png_name_inj in K. now subst.
      * rewrite (B l' H), WA. destruct (String.eqb_spec (d ++ png_name l') (d ++ png_name l)) as [K|K]; [|reflexivity].
        apply append_inj, png_name_inj in K. now subst.
    + intros q H. rewrite C by (intros l' Hl'; apply H; now right). rewrite WA.
      destruct (String.eqb_spec q (d ++ png_name l)) as [K|K]; [|reflexivity]. now apply H in K; [|left].
Qed.

Lemma saved_files W f d m fs : reg_ok m -> folder f d -> (forall l, has_layer m l -> ~ rooted l) ->
  exists fs', saveBundle W f m fs = Ret tt fs' /\
    (forall l, has_layer m l -> W (d ++ png_name l)%string = true -> fs' (d ++ png_name l)%string = Some (FPng (picture (matrix_of m l)))) /\
    (W f = true -> (forall l, has_layer m l -> f <> (d ++ png_name l)%string) -> fs' f = Some (FYaml (bundle_yaml m))) /\
    (forall q, W q = false \/ (q <> f /\ forall l, has_layer m l -> q <> (d ++ png_name l)%string) -> fs' q = fs q).
Proof.
  intros R F NR.
  assert (HI : forall l, has_layer m l <-> In l (layers m)).
  { intros l. unfold has_layer. rewrite (r_same _ R l), BaseLemmas.aget_In. tauto. }
  pose proof (fun q => proj2 (write_at W f (FYaml (bundle_yaml m)) fs q)) as WA.
  unfold saveBundle, bind at 1, write at 1. set (fs1 := if W f then _ else _) in *.
  destruct (save_layers W f d m R F (layers m) fs1) as (fs' & A & B & C); [apply R|intros l Hl; split; auto; apply NR, HI, Hl|].
  exists fs'. split; [exact A|]. split; [|split].
  - intros l Hl K. apply HI in Hl. now rewrite (B l Hl), K.
  - intros K N. rewrite C by (intros l Hl; apply N, HI, Hl). now rewrite WA, String.eqb_refl, K.
  - intros q [K|[N1 N2]].
    + assert (D : fs1 q = fs q). { rewrite WA, K. now destruct (String.eqb q f). }
      destruct (in_dec string_dec q (map (fun l => (d ++ png_name l)%string) (layers m))) as [I|I].
      * apply in_map_iff in I as (l & <- & Hl). now rewrite (B l Hl), K.
      * rewrite C; [exact D|]. intros l Hl ->. apply I. apply in_map_iff. eauto.
    + rewrite C by (intros l Hl; apply N2, HI, Hl). rewrite WA. destruct (String.eqb_spec q f); congruence.
Qed.

End Save.

(** Saving writes the yaml file and next to it one image per layer, as far as
    they can be written, and changes no other file. It ends in the same way
    whatever could be written. *)
Theorem C98_saved : forall (E : Env) (T : Text) W f d m fs, reg_ok m -> folder f d -> (forall l, has_layer m l -> ~ rooted l) ->
  exists b fs', toImageBundle m = Ok b /\ saveBundle W f m fs = Ret tt fs' /\
    (forall l, has_layer m l -> W (d ++ l ++ ".png")%string = true ->
       exists p, aget (b_files b) (l ++ ".png") = Some p /\ fs' (d ++ l ++ ".png")%string = Some (FPng p)) /\
    (W f = true -> (forall l, has_layer m l -> f <> (d ++ l ++ ".png")%string) -> fs' f = Some (FYaml (b_yaml b))) /\
    (forall q, W q = false \/ (q <> f /\ forall l, has_layer m l -> q <> (d ++ l ++ ".png")%string) -> fs' q = fs q).
Proof.
  intros E T W f d m fs R F NR. destruct (toImageBundle_ok E T m R) as (ps & TB & PS).
  destruct (saved_files W f d m fs R F NR) as (fs' & A & B & C & D).
  exists (Bundle (bundle_yaml m) ps), fs'. split; [exact TB|]. split; [exact A|]. split; [|split; [exact C|exact D]].
  intros l Hl K. exists (picture (matrix_of m l)). split; [|apply B; auto]. destruct Hl as [x Hx]. cbn [b_files].
  fold (png_name l). rewrite (PS l x Hx). unfold matrix_of. now rewrite Hx.
Qed.
Print Assumptions C98_saved.

(** Where nothing can be written (the folder does not exist, say), nothing is,
    and the node is finished all the same: later messages are not saved either,
    even if they could be written by then. *)
Theorem C98_unnoticed : forall (E : Env) (T : Text) W f g b fs, (forall q, W q = false) -> converts g b ->
  exists fs', save_to W f g (false, fs) = Ret tt (true, fs') /\ (forall q, fs' q = fs q) /\
    forall W' gs, mfor gs (save_to W' f) (true, fs') = Ret tt (true, fs').
Proof.
  intros E T W f g b fs NW (m & FM & TB).
  assert (K : exists fs', saveBundle W f m fs = Ret tt fs' /\ forall q, fs' q = fs q).
  { unfold saveBundle, bind at 1, write at 1. rewrite NW. unfold toImageBundle in TB.
    assert (H : forall ls ps, rmap (layer_file m) ls = Ok ps ->
      exists fs', mfor ls (fun l => bind (lift (layer_file m l)) (fun x => write W (join (parent_path f) (fst x)) (FPng (snd x)))) fs = Ret tt fs' /\
        forall q, fs' q = fs q).
    { induction ls as [|l t IH]; intros ps H; [exists fs; auto|]. cbn [rmap mfor] in *. unfold bind at 1. destruct (layer_file m l) as [x|e|k]; cbn [rbind] in H; try discriminate.
      cbn [lift]. unfold write at 1. rewrite NW. destruct (rmap (layer_file m) t) as [ys|e|k]; cbn [rbind] in H; try discriminate. now apply (IH ys). }
    destruct (rmap (layer_file m) (layers m)) as [ps|e|k] eqn:RM; cbn [rbind] in TB; try discriminate. now apply (H _ ps). }
  destruct K as (fs' & A & B). exists fs'. split; [|split; [exact B|]].
  - unfold save_to. cbn [fst snd]. now rewrite FM, A.
  - intros W' gs. induction gs as [|x gs IH]; [reflexivity|]. cbn [mfor]. unfold save_to at 1. cbn [fst]. exact IH.
Qed.
Print Assumptions C98_unnoticed.

(** ** Loading *)

Lemma names_saved m l n : NoDup (layers m) -> forall (T : Text),
  (names (y_layers (bundle_yaml m)) l n <-> In l (layers m) /\ n = png_name l).
Proof.
  intros _ T. cbn [bundle_yaml y_layers]. induction (layers m) as [|x t IH]; cbn [map In].
  - split; [intros H; inversion H|tauto].
  - split.
    + intros H. inversion H; subst; [tauto|]. apply IH in H6 as [A ->]. tauto.
    + intros [H ->]. destruct (string_dec l x) as [->|N]; [constructor|]. constructor; auto. apply IH. split; auto. destruct H; congruence.
Qed.

Lemma images_at fs f y n k : In (k, Some n) (y_layers y) -> aget (images fs f y) n = image_in (fs (join (parent_path f) n)).
Proof.
  unfold images. intros H.
  assert (G : forall es, match aget (flat_map (fun e : option string * option string => match snd e with
                     | None => []
                     | Some n => match fs (join (parent_path f) n) with Some (FPng p) => [(n, p)] | _ => [] end
                     end) es) n with
              | Some p => image_in (fs (join (parent_path f) n)) = Some p
              | None => In (k, Some n) es -> image_in (fs (join (parent_path f) n)) = None end).
  { induction es as [|[a [x|]] es IH]; cbn [flat_map snd app aget In].
    - tauto.
    - destruct (fs (join (parent_path f) x)) as [[y0|p]|] eqn:K; cbn [app aget].
      + destruct (aget _ n); auto. intros [J|J]; auto. injection J as -> ->. now rewrite K.
      + destruct (String.eqb_spec n x) as [->|N]; [now rewrite K|]. destruct (aget _ n); auto. intros [J|J]; auto. congruence.
      + destruct (aget _ n); auto. intros [J|J]; auto. injection J as -> ->. now rewrite K.
    - destruct (aget _ n); auto. intros [J|J]; auto. discriminate. }
  specialize (G (y_layers y)). destruct (aget _ n); [congruence|]. symmetry. auto.
Qed.

Lemma images_some fs f y n p : aget (images fs f y) n = Some p -> exists k, In (k, Some n) (y_layers y).
Proof.
  intros H. assert (I : In n (map fst (images fs f y))) by (apply BaseLemmas.aget_In; eauto). apply in_map_iff in I as ([n' p'] & <- & I).
  unfold images in I. apply in_flat_map in I as ([k [x|]] & I & J); [|destruct J]. cbn [snd fst] in J |- *.
  destruct (fs _) as [[?|?]|]; [destruct J| |destruct J]. destruct J as [J|[]]. injection J as -> _. eauto.
Qed.

(** What a map is after saving and loading, when the yaml file can be written:
    the layers whose images were written come back as C55 says; the others show
    what was in the file before, and are unknown if there was none. *)
Theorem C98_reload : forall (E : Env) (C : Cv) (T : Text) more, gray_range C -> gray_neutral C -> text_exact T ->
  (Exact E /\ more = []) \/ ((exists p, E = binary64 p) /\ more = short) ->
  forall W f d m m0 fs, folder f d -> (forall l, has_layer m l -> ~ rooted l /\ f <> (d ++ l ++ ".png")%string) -> W f = true ->
  reg_ok m -> reg_ok' m0 -> bytes m -> (0 < resn m)%Q -> 1 <= fst (size m) <= 2 ^ 22 -> 1 <= snd (size m) <= 2 ^ 22 ->
  (forall q p, fs q = Some (FPng p) -> png_ok p) ->
  exists fs' m' ls, saveBundle W f m fs = Ret tt fs' /\ loadBundle fs' f m0 = Ret tt m' /\
    frame m' = frame m /\ size m' = size m /\ layers m' = appended (layers m0) ls /\ ascending ls /\ (forall l, In l ls <-> has_layer m l) /\
    (forall l i v, in_range (size m) i -> value_at m l i v -> W (d ++ l ++ ".png")%string = true -> value_at m' l i (reloaded more v)) /\
    (forall l i, in_range (size m) i -> has_layer m l -> W (d ++ l ++ ".png")%string = false ->
       exists v, PropLoad.shows (size m) (image_in (fs (d ++ l ++ ".png")%string)) i v /\ value_at m' l i v).
Proof.
  intros E C T more GR GN TX MO W f d m m0 fs F NR WF R R0 BY RP S0 S1 PO.
  assert (X : real_or_double E) by (destruct MO as [[X _]|[X _]]; [now left|now right]).
  assert (MS : more = [] \/ more = short) by (destruct MO as [[_ ->]|[_ ->]]; auto).
  assert (EX : extra E more). { destruct MO as [[X' ->]|[[p ->] ->]]; intros v Hv; [cbn; now apply flipped_exact|now apply flipped_double]. }
  assert (HI : forall l, has_layer m l <-> In l (layers m)).
  { intros l. unfold has_layer. rewrite (r_same _ R l), BaseLemmas.aget_In. tauto. }
  destruct (saved_files W f d m fs R F (fun l H => proj1 (NR l H))) as (fs' & SV & B & CY & D).
  specialize (CY WF (fun l H => proj2 (NR l H))). exists fs'.
  set (b := Bundle (bundle_yaml m) (images fs' f (bundle_yaml m))).
  assert (LD : loadBundle fs' f m0 = fromImageBundle (Some b) m0) by (unfold loadBundle; now rewrite CY).
  assert (PIC : forall l, has_layer m l -> png_ok (picture (matrix_of m l)) /\ (f_rows (picture (matrix_of m l)), f_cols (picture (matrix_of m l))) = size m /\
    forall i v, in_range (size m) i -> value_at m l i v -> nth_error (f_px (picture (matrix_of m l))) (Z.to_nat (fst i * f_cols (picture (matrix_of m l)) + snd i)) = Some (saved_px v)).
  { intros l [x Hx]. unfold matrix_of. rewrite Hx. destruct (r_mat _ R _ _ Hx) as (WM & A & B').
    split; [|split].
    - split; [now right; right|]. cbn [picture f_px f_rows f_cols]. split. { rewrite map_length, zseq_length, A, B'. nia. }
      intros q Hq. apply in_map_iff in Hq as (k & <- & Hk). apply In_zseq in Hk.
      destruct (mat_has x _ (k / mcols x, k mod mcols x) WM eq_refl) as [v Hv].
      { apply (cell_div (mrows x, mcols x)); [apply WM|exact Hk]. }
      cbn [fst snd] in Hv. rewrite Hv. apply (saved_cost E C more v EX MS GN). apply (BY l (k / mcols x, k mod mcols x)). exists x. auto.
    - cbn [picture f_rows f_cols]. rewrite A, B'. now destruct (size m).
    - intros i v Hi (x' & Hx' & Hv). rewrite Hx in Hx'. injection Hx' as <-. now apply picture_at. }
  assert (IM : forall l, has_layer m l -> aget (b_files b) (png_name l) = image_in (fs' (d ++ png_name l)%string)).
  { intros l Hl. cbn [b b_files]. rewrite (images_at fs' f _ _ (Some l)).
    - rewrite (join_folder f d _ F); [reflexivity|]. apply rooted_png, NR, Hl.
    - cbn [bundle_yaml y_layers]. apply in_map_iff. exists l. split; auto. now apply HI. }
  assert (OLD : forall l, has_layer m l -> aget (b_files b) (png_name l) =
     if W (d ++ png_name l)%string then Some (picture (matrix_of m l)) else image_in (fs (d ++ png_name l)%string)).
  { intros l Hl. rewrite (IM l Hl). destruct (W (d ++ png_name l)%string) eqn:K; [now rewrite (B l Hl K)|]. now rewrite D by auto. }
  assert (TR : (0 < text (resn m))%Q) by now rewrite (TX _).
  destruct (C72_loaded E C X GR b m0 (frame m) (text (fst (pos m))) (text (fst (pos m))) (text (resn m)) (fst (size m)) (snd (size m)))
    as (m' & ls & FB & A1 & A2 & A3 & A4 & A5 & A6 & A7 & A8 & A9 & A10 & A11 & A12); try reflexivity; auto.
  { constructor; try (cbn; discriminate). cbn [b b_yaml bundle_yaml y_layers]. intros e He. apply in_map_iff in He as (l & <- & _). split; discriminate. }
  { intros n p H. destruct (images_some fs' f (bundle_yaml m) n p H) as [k Hk].
    cbn [bundle_yaml y_layers] in Hk. apply in_map_iff in Hk as (l & Hl & Il). injection Hl as _ <-. apply HI in Il.
    rewrite (OLD l Il) in H. destruct (W (d ++ png_name l)%string).
    - injection H as <-. now apply PIC.
    - unfold image_in in H. destruct (fs (d ++ png_name l)%string) as [[?|p']|] eqn:K; try discriminate. injection H as <-. eapply PO; eauto. }
  exists m', ls. split; [exact SV|]. split; [now rewrite LD|]. split; [exact A1|]. split; [rewrite A4; now destruct (size m)|].
  split; [exact A8|]. split; [exact A9|].
  assert (SE : (fst (size m), snd (size m)) = size m) by now destruct (size m). rewrite SE in A11, A12.
  assert (NM : forall l, has_layer m l -> names (y_layers (b_yaml b)) l (png_name l)).
  { intros l Hl. apply (names_saved m l (png_name l) (r_nodup _ R) T). split; auto. now apply HI. }
  split; [|split].
  - intros l. rewrite A10. split.
    + intros [n H]. apply (names_saved m l n (r_nodup _ R) T) in H as [H _]. now apply HI.
    + intros H. exists (png_name l). now apply NM.
  - intros l i v Hi Hv K.
    assert (Hl : has_layer m l) by (destruct Hv as (x & Hx & _); now exists x).
    destruct (A11 l (png_name l) i (NM l Hl) Hi) as (w & SH & V). rewrite (OLD l Hl) in SH. unfold png_name in SH at 1. rewrite K in SH.
    destruct (PIC l Hl) as (_ & SZ & PX). inversion SH as [|? ? NS|? ? q SZ' Q]; subst; [now rewrite SZ in NS|].
    rewrite (PX i v Hi Hv) in Q. injection Q as <-. cbn [picture f_channels Z.eqb Pos.eqb] in V.
    rewrite (proj1 (saved_cost E C more v EX MS GN (BY l i v Hv))) in V. exact V.
  - intros l i Hi Hl K. destruct (A11 l (png_name l) i (NM l Hl) Hi) as (w & SH & V). rewrite (OLD l Hl) in SH. unfold png_name in SH at 1.
    rewrite K in SH. eauto.
Qed.
Print Assumptions C98_reload.

(** A bundle whose yaml file has the name of one of its images is lost. *)
Theorem C98_overwritten : forall (E : Env) (C : Cv) (T : Text) W f d m m0 fs l, reg_ok m -> folder f d ->
  (forall l, has_layer m l -> ~ rooted l) -> has_layer m l -> f = (d ++ l ++ ".png")%string -> W f = true ->
  exists fs', saveBundle W f m fs = Ret tt fs' /\ loadBundle fs' f m0 = Exn LogicError m0.
Proof.
  intros E C T W f d m m0 fs l R F NR Hl HF WF. destruct (saved_files W f d m fs R F NR) as (fs' & SV & B & _).
  exists fs'. split; [exact SV|]. unfold loadBundle. specialize (B l Hl). unfold png_name in B. rewrite <- HF in B. now rewrite (B WF).
Qed.
Print Assumptions C98_overwritten.


(** A map with the layers "a", "b" and "deep/c", saved where the folder "out"
    exists and "out/deep" does not: the third layer is lost. *)
Definition deep : cmap := after (add_value "deep/c" 7) sample.
Definition out_only (q : string) : bool := String.prefix "out/" q && negb (String.prefix "out/deep/" q).
Definition disk : files := fun q => if String.eqb q "notes" then Some (FYaml (bundle_yaml (T := plain) sample)) else None.

Definition saved_in (W : string -> bool) (f : string) (m : cmap) : files :=
  match saveBundle (E := binary64 BWrap) (T := plain) W f m disk with Ret _ fs => fs | _ => disk end.
Definition loaded_from (fs : files) (f : string) : out cmap unit := loadBundle (E := binary64 BWrap) (C := opencv true) fs f (new_map []).

Example C98_case : folder "out/x.yaml" "out/" /\ (forall l, has_layer deep l -> ~ rooted l /\ "out/x.yaml"%string <> ("out/" ++ l ++ ".png")%string) /\
  (let fs := saved_in out_only "out/x.yaml" deep in
   map (fun q => match fs q with Some (FYaml _) => 1 | Some (FPng _) => 2 | None => 0 end)
       ["out/x.yaml"; "out/a.png"; "out/b.png"; "out/deep/c.png"; "deep/c.png"; "notes"]%string = [1; 2; 2; 0; 0; 1] /\
   match loaded_from fs "out/x.yaml" with
   | Ret _ m' => layers m' = ["a"; "b"; "deep/c"]%string /\ map (fun l => at_ m' l (0, 1)) (layers m') = [at_ deep "a" (0, 1); at_ deep "b" (0, 1); Ok 255] /\
       at_ deep "deep/c" (0, 1) = Ok 7
   | _ => False
   end).
Proof.
  split. { apply (folder_some "out" "x.yaml"); [|intros [|c [|c' [|c'' [|? e]]]] H; cbn in H; congruence].
    pose proof (split_slash_iff "x.yaml") as H. exact H. }
  split. { intros l [x Hx]. assert (I : In l (akeys (data deep))) by exact (proj1 (BaseLemmas.aget_In (data deep) l) (ex_intro _ x Hx)).
    assert (K : akeys (data deep) = ["a"; "b"; "deep/c"]%string) by (vm_compute; reflexivity). rewrite K in I.
    destruct I as [<-|[<-|[<-|[]]]]; (split; [intros [r H]; discriminate|discriminate]). }
  conj_vm.
Qed.

(** Where "out" does not exist either: nothing is written, nothing is noticed,
    and there is nothing to load. *)
Example C98_unnoticed_case :
  match save_to (E := binary64 BWrap) (T := plain) (fun _ => false) "out/x.yaml" (message sample) (false, disk) with
  | Ret _ (true, fs) => fs "out/x.yaml"%string = None /\ loaded_from fs "out/x.yaml" = Exn BadFile (new_map [])
  | _ => False
  end.
Proof. conj_vm. Qed.

Lemma saved_in_ok W f m : match saveBundle (E := binary64 BWrap) (T := plain) W f m disk with Ret _ _ => true | _ => false end = true ->
  saveBundle (E := binary64 BWrap) (T := plain) W f m disk = Ret tt (saved_in W f m).
Proof. unfold saved_in. destruct (saveBundle W f m disk) as [[] fs| |]; [reflexivity|discriminate|discriminate]. Qed.

(** Layers "b" and "/b" share the file "out/b.png": the second one is loaded
    for both. *)
Theorem C98_rooted_refuted : exists m fs m', reg_ok m /\ layers m = ["a"; "b"; "/b"]%string /\
  saveBundle (E := binary64 BWrap) (T := plain) (fun _ => true) "out/x.yaml" m disk = Ret tt fs /\
  loaded_from fs "out/x.yaml" = Ret tt m' /\ value_at m "b" (0, 0) 100 /\ value_at m' "b" (0, 0) 7 /\ value_at m' "/b" (0, 0) 7.
Proof.
  set (m := after (add_value "/b" 7) sample).
  exists m, (saved_in (fun _ => true) "out/x.yaml" m),
    (match loaded_from (saved_in (fun _ => true) "out/x.yaml" m) "out/x.yaml" with Ret _ m' => m' | _ => new_map [] end).
  split. { refine (proj1 (reg_okb_ok m _)); vm_compute; reflexivity. }
  split; [vm_compute; reflexivity|]. split; [apply saved_in_ok; vm_compute; reflexivity|]. split; [vm_compute; reflexivity|].
  split; [|split]; apply at_value; vm_compute; reflexivity.
Qed.
Print Assumptions C98_rooted_refuted.

(** A map with a layer "a", saved under the name "out/a.png". *)
Example C98_overwritten_case :
  let fs := saved_in (fun _ => true) "out/a.png" sample in
  match fs "out/a.png"%string with Some (FPng _) => True | _ => False end /\ loaded_from fs "out/a.png" = Exn LogicError (new_map []).
Proof. conj_vm. Qed.
