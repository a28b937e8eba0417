(** * The output files. *)
From Coq Require Import String Ascii Permutation Decimal DecimalString DecimalN.
From Flocq Require Import BinarySingleNaN.
From Verif Require Import Base Ser Prs PrsProofs PrsTop Regex Img Float HilbertC CodecSpec CodecHilbert CodecSquare Select SelectProofs Special SpecialSpec.
Close Scope string_scope.
Open Scope list_scope.
Notation length := List.length.

(** ** Splitting *)
Lemma split_nonempty c s : split_on c s <> [].
Proof. destruct s as [|x s]; cbn; [discriminate|]. destruct (x =? c)%N; [discriminate|]. destruct (split_on c s); discriminate. Qed.
Lemma split_app c : forall a b, split_on c (a ++ c :: b) = split_on c a ++ split_on c b.
Proof.
  induction a as [|x a IH]; intros b; cbn.
  - rewrite N.eqb_refl. reflexivity.
  - rewrite IH. destruct (x =? c)%N; [reflexivity|]. pose proof (split_nonempty c a) as H. destruct (split_on c a) as [|q l]; [now destruct H|reflexivity].
Qed.
Lemma split_none c : forall s, ~ In c s -> split_on c s = [s].
Proof.
  induction s as [|x s IH]; intros H; [reflexivity|]. cbn. destruct (N.eqb_spec x c) as [->|N]; [exfalso; apply H; now left|].
  rewrite IH; [reflexivity|]. intros I. apply H. now right.
Qed.
Definition glue (c : N) (l : list text) : text := concat (map (fun q => q ++ [c]) l).
Lemma split_last c : forall s, exists l e, split_on c s = l ++ [e] /\ s = glue c l ++ e.
Proof.
  induction s as [|x s (l & e & E & G)]; [exists [], []; now split|]. cbn. rewrite E. destruct (N.eqb_spec x c) as [->|N].
  - exists ([] :: l), e. split; [reflexivity|]. cbn. now rewrite G at 1.
  - destruct l as [|q l]; cbn.
    + exists [], (x :: e). split; [reflexivity|]. cbn in *. now rewrite G at 1.
    + exists ((x :: q) :: l), e. split; [reflexivity|]. cbn in *. now rewrite G at 1.
Qed.
Lemma split_parts c : forall s, Forall (fun q => ~ In c q) (split_on c s).
Proof.
  induction s as [|x s IH]; cbn; [constructor; [intros []|constructor]|]. destruct (N.eqb_spec x c) as [->|N]; [constructor; [intros []|exact IH]|].
  destruct (split_on c s) as [|q l]; [constructor; [|constructor]; intros [E|[]]; congruence|].
  inversion IH as [|? ? Hq Hl]; subst. constructor; [|exact Hl]. intros [E|I]; [congruence|now apply Hq].
Qed.
Lemma rev_some {A} (l : list A) x t : rev l = x :: t -> l = rev t ++ [x].
Proof. intros H. rewrite <- (rev_involutive l), H. reflexivity. Qed.

(** ** File names *)
Lemma text_eqb_neq a b : a <> b -> text_eqb a b = false.
Proof. intros H. destruct (text_eqb a b) eqn:E; [|reflexivity]. apply text_eqb_eq in E. contradiction. Qed.
Definition counts (c : text) : bool := negb (text_eqb c []) && negb (text_eqb c [DOT]).
Lemma file_name_inside path name : file_name path = Some name -> plain_name name.
Proof.
  unfold file_name. fold counts. destruct (rev (filter counts (split_on SLASH path))) as [|x t] eqn:E; [discriminate|].
  destruct (text_eqb x [DOT; DOT]) eqn:D; [discriminate|]. intros [= <-]. assert (I : In x (filter counts (split_on SLASH path))).
  { apply in_rev. rewrite E. now left. }
  apply filter_In in I as [I C]. unfold counts in C. apply Bool.andb_true_iff in C as [C1 C2].
  split; [|split; [|split]].
  - intros ->. discriminate.
  - intros ->. discriminate.
  - intros ->. discriminate.
  - exact (proj1 (Forall_forall _ _) (split_parts SLASH path) x I).
Qed.
Lemma file_name_of d name : directory d -> plain_name name -> file_name (d ++ name) = Some name.
Proof.
  intros Hd (N1 & N2 & N3 & N4). unfold file_name. fold counts.
  assert (E : exists l, filter counts (split_on SLASH (d ++ name)) = l ++ [name]).
  { assert (C : filter counts [name] = [name]) by (cbn; unfold counts; now rewrite !text_eqb_neq).
    destruct Hd as [->|[d' ->]].
    - exists []. cbn [app]. now rewrite split_none.
    - rewrite <- app_assoc. cbn [app]. rewrite split_app, filter_app, (split_none SLASH name N4). eexists. etransitivity; [apply f_equal, C|]. reflexivity. }
  destruct E as [l ->]. rewrite rev_unit. now rewrite text_eqb_neq.
Qed.
Lemma file_stem_spec name : name <> [] -> stem_of name (file_stem name).
Proof.
  intros Hn. unfold file_stem. destruct (split_last DOT name) as (l & e & E & G). pose proof (split_parts DOT name) as P. rewrite E in *.
  rewrite rev_unit. apply Forall_app in P as [Pl Pe]. inversion Pe as [|? ? He _]; subst.
  destruct (rev l) as [|b t] eqn:R.
  - assert (l = []) by (rewrite <- (rev_involutive l), R; reflexivity). subst l. cbn. now apply stem_none.
  - apply rev_some in R. subst l. fold (glue DOT (rev t)). cbv zeta. unfold glue in *. rewrite map_app, concat_app. cbn [map concat]. rewrite app_nil_r, <- !app_assoc.
    unfold text in *. set (g := concat (map (fun q : list N => q ++ [DOT]) (rev t))) in *. destruct (text_eqb (g ++ b) []) eqn:Z.
    + apply text_eqb_eq in Z. apply app_eq_nil in Z as [Zg ->]. rewrite Zg. cbn. now apply stem_hidden.
    + rewrite (app_assoc g b). apply stem_cut; [intros X; rewrite X in Z; discriminate|exact He].
Qed.
Lemma glue_split c s : forall l e, split_on c s = l ++ [e] -> s = glue c l ++ e.
Proof.
  intros l e H. destruct (split_last c s) as (l' & e' & E & G). rewrite E in H. apply app_inj_tail in H as [<- <-]. exact G.
Qed.
Lemma file_stem_cut stem ext : stem <> [] -> ~ In DOT ext -> file_stem (stem ++ [DOT] ++ ext) = stem.
Proof.
  intros Hs He. unfold file_stem. cbn [app]. rewrite split_app, (split_none DOT ext He), rev_unit.
  destruct (split_last DOT stem) as (l & e & E & G). rewrite E, rev_unit, rev_involutive. fold (glue DOT l). rewrite <- G. now rewrite text_eqb_neq.
Qed.
Lemma stem_chars name stem x : stem_of name stem -> In x stem -> In x name.
Proof. intros H I. destruct H; [|exact I|exact I]. apply in_or_app. now left. Qed.
Lemma stem_nonempty name stem : name <> [] -> stem_of name stem -> stem <> [].
Proof. intros N H. destruct H; [assumption|assumption|discriminate]. Qed.

Lemma under_output_inside path ext f : under_output path ext = Ok f ->
  exists stem, f = txt "output/" ++ stem ++ [DOT] ++ ext /\ stem <> [] /\ ~ In SLASH stem.
Proof.
  unfold under_output. destruct (file_name path) as [name|] eqn:E; [|discriminate]. intros [= <-]. apply file_name_inside in E as (N1 & _ & _ & N4).
  pose proof (file_stem_spec name N1) as S. exists (file_stem name). split; [reflexivity|]. split; [now apply stem_nonempty with name|].
  intros I. apply N4. now apply stem_chars with (1 := S).
Qed.
Lemma under_output_exact d name ext : directory d -> plain_name name ->
  exists stem, stem_of name stem /\ under_output (d ++ name) ext = Ok (txt "output/" ++ stem ++ [DOT] ++ ext).
Proof.
  intros Hd Hn. exists (file_stem name). split; [apply file_stem_spec, Hn|]. unfold under_output. now rewrite file_name_of.
Qed.
Lemma under_output_collide d d' stem e e' ext : directory d -> directory d' -> stem <> [] -> ~ In SLASH stem ->
  ~ In DOT e -> ~ In SLASH e -> ~ In DOT e' -> ~ In SLASH e' ->
  plain_name (stem ++ [DOT] ++ e) -> plain_name (stem ++ [DOT] ++ e') ->
  under_output (d ++ stem ++ [DOT] ++ e) ext = under_output (d' ++ stem ++ [DOT] ++ e') ext.
Proof.
  intros Hd Hd' Hs _ De _ De' _ Hp Hp'. unfold under_output. rewrite !file_name_of by assumption. now rewrite !file_stem_cut.
Qed.
Lemma under_output_aborts path ext : Forall (fun c => c = [] \/ c = [DOT]) (split_on SLASH path) \/ (exists d, directory d /\ path = d ++ [DOT; DOT]) ->
  under_output path ext = Panic.
Proof.
  intros H. unfold under_output, file_name. fold counts. destruct H as [H|(d & Hd & ->)].
  - replace (filter counts (split_on SLASH path)) with (@nil text); [reflexivity|]. symmetry. induction H as [|c l [->| ->] _ IH]; [reflexivity| |]; exact IH.
  - assert (E : exists l, filter counts (split_on SLASH (d ++ [DOT; DOT])) = l ++ [[DOT; DOT]]).
    { destruct Hd as [->|[d' ->]]; [exists []; reflexivity|]. rewrite <- app_assoc. cbn [app]. rewrite split_app, filter_app. eexists. reflexivity. }
    destruct E as [l ->]. now rewrite rev_unit.
Qed.

(** ** The dump *)
Lemma row_major_pixels im : img_ok im -> map (pixel_at im) (row_major (im_w im) (im_h im)) = im_px im.
Proof.
  intros Hi. pose proof Hi as (_ & _ & _ & L & _). apply List.nth_ext with (d := (black, 0%N)) (d' := (black, 0%N)).
  - rewrite map_length, row_major_length. lia.
  - intros i H. rewrite map_length, row_major_length in H. set (w := im_w im) in *. set (h := im_h im) in *.
    assert (Hw : (0 < w)%N) by (destruct w; lia). set (x := (N.of_nat i mod w)%N). set (y := (N.of_nat i / w)%N).
    assert (Hx : (x < w)%N) by (apply N.mod_lt; lia). assert (Hy : (y < h)%N) by (apply N.div_lt_upper_bound; lia).
    pose proof (row_major_nth w h x y Hx Hy) as R.
    assert (Ei : px_index w x y = i) by (unfold px_index; pose proof (N.div_mod (N.of_nat i) w ltac:(lia)) as D; fold x y in D; lia).
    rewrite Ei in R. rewrite nth_indep with (d' := pixel_at im (0, 0)%N) by (rewrite map_length, row_major_length; exact H).
    rewrite map_nth. rewrite (nth_error_nth _ _ _ R). unfold pixel_at. cbn [fst snd]. fold w. now rewrite Ei.
Qed.
Lemma visited_pixels im ps : img_ok im -> visits_all (im_w im) (im_h im) ps -> Permutation (map (pixel_at im) ps) (im_px im).
Proof.
  intros Hi Hv. apply Permutation_trans with (map (pixel_at im) (row_major (im_w im) (im_h im))); [|rewrite (row_major_pixels im Hi); apply Permutation_refl]. apply Permutation_map, visits_perm, Hv.
Qed.
Lemma columns l : column (txt "red") (dump_table l) = Some (map (fun px => Some (Num (red px))) l)
  /\ column (txt "blue") (dump_table l) = Some (map (fun px => Some (Num (green px))) l)
  /\ column (txt "green") (dump_table l) = Some (map (fun px => Some (Num (blue px))) l).
Proof.
  assert (E : forall i f, (forall px : rgba, nth_error (let '(r, g, b) := to_rgb px in [Num r; Num g; Num b]) i = Some (Num (f px))) ->
    map (fun r => nth_error r i) (map (fun px : rgba => let '(r, g, b) := to_rgb px in [Num r; Num g; Num b]) l) = map (fun px => Some (Num (f px))) l).
  { intros i f H. rewrite map_map. apply map_ext. exact H. }
  split; [|split].
  - change (column (txt "red") (dump_table l)) with (Some (map (fun r => nth_error r 0) (map (fun px : rgba => let '(r, g, b) := to_rgb px in [Num r; Num g; Num b]) l))).
    f_equal. apply E. intros px. unfold red. now destruct (to_rgb px) as [[r g] b].
  - change (column (txt "blue") (dump_table l)) with (Some (map (fun r => nth_error r 1) (map (fun px : rgba => let '(r, g, b) := to_rgb px in [Num r; Num g; Num b]) l))).
    f_equal. apply E. intros px. unfold green. now destruct (to_rgb px) as [[r g] b].
  - change (column (txt "green") (dump_table l)) with (Some (map (fun r => nth_error r 2) (map (fun px : rgba => let '(r, g, b) := to_rgb px in [Num r; Num g; Num b]) l))).
    f_equal. apply E. intros px. unfold blue. now destruct (to_rgb px) as [[r g] b].
Qed.
Lemma dumped_table l : dumped (dump_table l) l.
Proof. split; [|apply columns]. unfold dump_table. cbn [length]. now rewrite map_length. Qed.
Lemma dump_spec p scan d name im : img_ok im -> (im_w im <= 2 ^ 31)%N -> (im_h im <= 2 ^ 31)%N -> directory d -> plain_name name ->
  (forall w h, (w < 2 ^ 32)%N -> (h < 2 ^ 32)%N -> visits_all w h (scan w h)) ->
  exists stem rect small large s S, stem_of name stem /\ small_side (im_w im) (im_h im) s /\ large_side (im_w im) (im_h im) S
  /\ dump p scan (d ++ name) im = Ok [(txt "output/" ++ stem ++ txt ".rect.hilbert.csv", rect);
       (txt "output/" ++ stem ++ txt ".small.hilbert.csv", small); (txt "output/" ++ stem ++ txt ".large.hilbert.csv", large)]
  /\ dumped rect (map (pixel_at im) (scan (im_w im) (im_h im)))
  /\ dumped small (map (pixel_at im) (scan s s))
  /\ dumped large (map (pixel_at im) (filter (fun q => (fst q <? im_w im) && (snd q <? im_h im))%N (scan S S)))
  /\ Permutation (map (pixel_at im) (scan (im_w im) (im_h im))) (im_px im)
  /\ Permutation (map (pixel_at im) (filter (fun q => (fst q <? im_w im) && (snd q <? im_h im))%N (scan S S))) (im_px im).
Proof.
  intros Hi Hw Hh Hd Hn Hs. pose proof Hi as (Uw & Uh & _). destruct (under_output_exact d name [] Hd Hn) as (stem & Ss & _).
  assert (F : forall ext, under_output (d ++ name) ext = Ok (txt "output/" ++ file_stem name ++ [DOT] ++ ext)) by (intros ext; unfold under_output; now rewrite file_name_of).
  destruct (small_spec p scan im Hi Hw Hh) as (s & Hsm & Hsl). destruct (large_spec p scan im Hi Hw Hh (fun s Hs0 => Hs s s Hs0 Hs0)) as (S & ps & HS & Eps & Hps & Hl).
  assert (Us : (s < 2 ^ 32)%N). { clear -Hsm Uw Uh. unfold u32_ok in *. destruct Hsm as [[_ ->]|[? (k & -> & ?)]]; lia. }
  specialize (Hsl (visits_inside _ _ _ (Hs s s Us Us))). rewrite Eps in Hps, Hl.
  exists (file_stem name). do 3 eexists. exists s, S. split; [apply file_stem_spec, Hn|]. split; [exact Hsm|]. split; [exact HS|].
  split; [|split; [apply dumped_table|split; [apply dumped_table|split; [apply dumped_table|]]]].
  - unfold dump, dump_file. rewrite !F, Hsl, Hl. unfold linearize_rect. rewrite (get_pixels_ok im _ Hi (visits_inside _ _ _ (Hs _ _ Uw Uh))). reflexivity.
  - split; [apply visited_pixels; [exact Hi|now apply Hs]|now apply visited_pixels].
Qed.

(** ** Names of codecs *)
Lemma txt_inj a b : txt a = txt b -> a = b.
Proof.
  unfold txt. intros H. rewrite <- (string_of_list_ascii_of_string a), <- (string_of_list_ascii_of_string b). f_equal.
  revert H. generalize (list_ascii_of_string a) (list_ascii_of_string b). induction l as [|x l IH]; intros [|y l'] H; try discriminate; [reflexivity|].
  cbn in H. injection H as E H. f_equal; [|now apply IH]. rewrite <- (ascii_N_embedding x), <- (ascii_N_embedding y). now rewrite E.
Qed.
Lemma decimal_inj a b : decimal a = decimal b -> a = b.
Proof.
  intros H. apply txt_inj in H. assert (E : N.to_uint a = N.to_uint b).
  { pose proof (NilEmpty.usu (N.to_uint a)) as A. rewrite H, NilEmpty.usu in A. now injection A. }
  rewrite <- (Unsigned.of_to a), <- (Unsigned.of_to b). now rewrite E.
Qed.
Lemma app_head {A} (p q a b : list A) : length p = length q -> p ++ a = q ++ b -> p = q /\ a = b.
Proof.
  revert q. induction p as [|x p IH]; intros [|y q] L E; try discriminate; [now split|]. injection L as L. cbn in E. injection E as -> E.
  destruct (IH q L E) as [-> ->]. now split.
Qed.

Lemma name_inj show c c' : (forall d d', show d = show d' -> d = d') -> codec_name show c = codec_name show c' -> same_codec c c'.
Proof.
  intros Hs. unfold same_codec.
  destruct c as [n|n| |[d|]| |[|]], c' as [n'|n'| |[d'|]| |[|]]; cbn [codec_name]; try (destruct (feq d (f64_of_N 0)) eqn:D); try (destruct (feq d' (f64_of_N 0)) eqn:D');
    intros H; try (now left); try (apply (f_equal (firstn 12)) in H; discriminate H).
  - apply app_inv_head in H. left. f_equal. now apply decimal_inj.
  - apply app_inv_head in H. left. f_equal. now apply decimal_inj.
  - right. exists d, d'. auto.
  - apply app_inv_head in H. left. now rewrite (Hs _ _ H).
Qed.
Lemma table_inj show c c' : (forall d d', show d = show d' -> d = d') -> table_file show c = table_file show c' -> same_codec c c'.
Proof. intros Hs H. unfold table_file in H. apply app_inv_head, app_inv_tail in H. now apply name_inj with show. Qed.

(** ** Counterexamples *)
Lemma green_wrong : exists p scan path im files, img_ok im /\ visits_all (im_w im) (im_h im) (scan (im_w im) (im_h im))
  /\ dump p scan path im = Ok files
  /\ exists f t, nth_error files 0 = Some (f, t)
     /\ column (txt "green") t <> Some (map (fun q => Some (Num (green (pixel_at im q)))) (scan (im_w im) (im_h im))).
Proof.
  exists Debug, (fun w h => if (w =? 0)%N then [] else [(0, 0)%N]), (txt "a.png"), (mkImg 1 1 [((1, 2, 3)%N, 255%N)]). eexists.
  split; [split; [reflexivity|]; split; [reflexivity|]; split; [reflexivity|]; split; [reflexivity|]; repeat constructor|].
  split; [split; [cbn; repeat constructor; intros []|intros x y; cbn; split; [intros [H|[]]; injection H as <- <-; lia|intros [A B]; left; f_equal; lia]]|].
  split; [vm_compute; reflexivity|]. eexists _, _. split; [reflexivity|]. vm_compute. discriminate.
Qed.
Lemma names_collide : exists path path' ext f, path <> path' /\ under_output path ext = Ok f /\ under_output path' ext = Ok f.
Proof. exists (txt "a/x.png"), (txt "b/x.jpg"), (txt "cniic"). eexists. split; [discriminate|]. split; vm_compute; reflexivity. Qed.
