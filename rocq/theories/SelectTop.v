(** * Spellings of the codecs (C49). *)
From Coq Require Import String.
From Verif Require Import Base Prs PrsSpec PrsProofs PrsTop Regex RegexProofs Img Float HilbertC Select SelectSpec SelectProofs.
Close Scope string_scope.
Open Scope list_scope.
Notation length := List.length.

Lemma digits_ascii ds : Forall (fun c => 48 <= c <= 57)%N ds -> ascii ds.
Proof. intros H. eapply Forall_impl; [|exact H]. cbn. intros c Hc. lia. Qed.
Lemma in_words_ascii words w : forallb (forallb (fun c => (c <? 128)%N)) words = true -> In w words -> ascii w.
Proof. intros H I. rewrite forallb_forall in H. now apply ascii_txt_check, H. Qed.
(** A name and one number *)
Definition named (name ds : text) : text := name ++ LPAREN :: ds ++ [RPAREN].
Lemma named_ascii name ds : ascii name -> Forall (fun c => 48 <= c <= 57)%N ds -> ascii (named name ds).
Proof.
  intros Hn Hd. unfold named. rewrite ascii_app, ascii_cons, ascii_app. splits; auto using digits_ascii; unfold LPAREN, RPAREN; [lia|].
  repeat constructor.
Qed.
Lemma named_first words name ds : In name words -> digits ds -> first_number words (named name ds) ds.
Proof. intros H D. exists []. split; [|cbn; lia]. split; [exact D|]. exists name, []. split; [exact H|]. reflexivity. Qed.
(** Where a number can be found in it *)
Lemma paren_once name ds pre w x : ~ In LPAREN name -> ~ In LPAREN ds -> named name ds = pre ++ w ++ LPAREN :: x -> pre ++ w = name.
Proof.
  intros N1 N2 E. rewrite app_assoc in E. assert (N3 : ~ In LPAREN (pre ++ w)).
  { intros I. apply in_split in I as (a & b & E'). rewrite E', <- app_assoc in E. cbn [app] in E. unfold named in E.
    assert (C : count LPAREN (name ++ LPAREN :: ds ++ [RPAREN]) = count LPAREN (a ++ LPAREN :: b ++ LPAREN :: x)) by now rewrite E.
    assert (Z : forall l, ~ In LPAREN l -> count LPAREN l = 0%nat).
    { intros l. unfold count. induction l as [|c l IH]; [reflexivity|]. intros H. cbn [filter]. destruct (N.eqb_spec c LPAREN) as [->|_]; [destruct H; now left|].
      apply IH. intros Hc. apply H. now right. }
    change (LPAREN :: ds ++ [RPAREN]) with ([LPAREN] ++ ds ++ [RPAREN]) in C. change (a ++ LPAREN :: b ++ LPAREN :: x) with (a ++ [LPAREN] ++ b ++ [LPAREN] ++ x) in C.
    rewrite !count_app, (Z name N1), (Z ds N2) in C. change (count LPAREN [LPAREN]) with 1%nat in C. change (count LPAREN [RPAREN]) with 0%nat in C. lia. }
  unfold named in E. apply split_first in E as [<- _]; auto.
Qed.
Definition has_suffix (name w : text) : bool := text_eqb (skipn (length name - length w) name) w.
Lemma suffix_ok pre w : has_suffix (pre ++ w) w = true.
Proof. unfold has_suffix. apply text_eqb_eq. rewrite app_length. replace (length pre + length w - length w)%nat with (length pre) by lia. rewrite skipn_app, skipn_all, Nat.sub_diag. reflexivity. Qed.
Lemma digits_no_open ds : Forall (fun c => 48 <= c <= 57)%N ds -> ~ In LPAREN ds.
Proof. intros H I. rewrite Forall_forall in H. apply H in I. unfold LPAREN in I. lia. Qed.
Lemma named_none words name ds : ~ In LPAREN name -> digits ds -> existsb (has_suffix name) words = false -> forall n, ~ numbered words (named name ds) n.
Proof.
  intros N1 [_ D] H n (ds' & (pre & (_ & w & post & Hw & E) & _) & _). apply paren_once in E; [|exact N1|now apply digits_no_open].
  assert (B : existsb (has_suffix name) words = true) by (apply existsb_exists; exists w; split; [exact Hw|]; rewrite <- E; apply suffix_ok). congruence.
Qed.
Lemma numbered_value words s ds n : Forall (fun w => ~ In LPAREN w) words -> first_number words s ds -> numbered words s n -> n = number ds /\ (number ds < 2 ^ 64)%N.
Proof. intros Hw F (ds' & F' & <- & L). rewrite (first_unique words Hw s ds ds' F F'). auto. Qed.

Lemma plainb_no_open s : plainb s = true -> ~ In LPAREN s.
Proof. intros H I. apply plainb_ok in H. unfold plain in H. rewrite Forall_forall in H. apply (H _ I). now left. Qed.
Section Spellings.
  Variables (p : profile) (d : N -> bool) (parse_f64 : text -> option f64).
  Hypothesis Hd : digit_class_ok d.

  Lemma cluster_spelling w ds : In w cluster_words -> digits ds -> (number ds < 2 ^ 64)%N ->
    any_codec_from_str p d parse_f64 (w ++ txt "(" ++ ds ++ txt ")") = POk (ClusterColors (number ds)).
  Proof.
    intros Hw D L. change (w ++ txt "(" ++ ds ++ txt ")") with (named w ds). rewrite from_str_order.
    assert (A : ascii (named w ds)) by (apply named_ascii; [now apply (in_words_ascii cluster_words)|apply D]).
    assert (Q : cluster_from_str d (named w ds) = POk (ClusterColors (number ds))).
    { apply (cluster_cases d Hd _ A). exists (number ds). split; [|reflexivity]. exists ds. auto using named_first. }
    now rewrite Q.
  Qed.
  Lemma voronoi_spelling ds : digits ds -> (number ds < 2 ^ 64)%N ->
    any_codec_from_str p d parse_f64 (txt "voronoi(" ++ ds ++ txt ")") = POk (VoronoiCluster (number ds)).
  Proof.
    intros D L. change (txt "voronoi(" ++ ds ++ txt ")") with (named (txt "voronoi") ds). rewrite from_str_order.
    assert (A : ascii (named (txt "voronoi") ds)) by (apply named_ascii; [now apply ascii_txt_check|apply D]).
    assert (NV : ~ In LPAREN (txt "voronoi")) by now apply plainb_no_open.
    destruct (cluster_cases d Hd _ A) as [C P]. destruct (cluster_from_str d (named (txt "voronoi") ds)) as [c|e|] eqn:E; [exfalso| |congruence].
    { destruct (proj1 (C c) eq_refl) as (n & H & _). revert H. apply named_none; auto. }
    assert (Q : voronoi_from_str d (named (txt "voronoi") ds) = POk (VoronoiCluster (number ds))).
    { apply (voronoi_cases d Hd _ A). exists (number ds). split; [|reflexivity]. exists ds. splits; auto. apply named_first; auto. now left. }
    now rewrite Q.
  Qed.
  (** Names with a number that are nothing else *)
  Lemma named_rejected name ds : ascii name -> ~ In LPAREN name -> digits ds -> nesting_below 65536 (named name ds) ->
    (forall n, ~ numbered cluster_words (named name ds) n) -> (forall n, ~ numbered voronoi_words (named name ds) n) ->
    negb (existsb (text_eqb name) [txt "hilbert"; txt "Hilbert"; txt "zip"]) = true ->
    exists e, any_codec_from_str p d parse_f64 (named name ds) = PErr e.
  Proof.
    intros An Np D Hn NC NV Hx. destruct (from_str_spec p d parse_f64 Hd (named name ds)) as [S P]; [now apply named_ascii; [|apply D]|exact Hn|].
    destruct (any_codec_from_str p d parse_f64 (named name ds)) as [c|e|] eqn:E; [exfalso|eauto|exfalso].
    - destruct (proj1 (S c) eq_refl) as [(n & H & _)|[[_ (n & H & _)]|[_ [_ H]]]]; [now destruct (NC n)|now destruct (NV n)|].
      assert (W : forall pre w x, named name ds = pre ++ w ++ LPAREN :: x -> name = pre ++ w).
      { intros pre w x Q. symmetry. apply (paren_once name ds pre w x); auto. apply digits_no_open, D. }
      assert (I : In LPAREN (named name ds)) by (apply in_app_iff; right; now left).
      assert (X : In name [txt "hilbert"; txt "Hilbert"; txt "zip"] -> False).
      { intros Hi. rewrite negb_true_iff in Hx. assert (B : existsb (text_eqb name) [txt "hilbert"; txt "Hilbert"; txt "zip"] = true) by (apply existsb_exists; exists name; split; [exact Hi|now apply text_eqb_eq]). congruence. }
      destruct H as [[H _]|[(a & m & [H|H] & _)|[[H _]|[[H _]|[H _]]]]].
      + rewrite H in I. revert I. now apply plainb_no_open.
      + apply X. rewrite (W [] (txt "hilbert") (a ++ txt ")") H). now left.
      + apply X. rewrite (W [] (txt "Hilbert") (a ++ txt ")") H). right. now left.
      + assert (H2 : forall s, Forall2 (fun c l => c = l \/ (c + 32)%N = l) s (txt "hufman") -> ~ In LPAREN s).
        { intros s Hs I'. clear - Hs I'. assert (L : Forall (fun l => (97 <= l <= 122)%N) (txt "hufman")) by (repeat constructor; cbn; lia).
          induction Hs as [|c l s t Hc Hs IH]; [destruct I'|]. inversion_clear L. destruct I' as [->|I']; [unfold LPAREN in Hc; lia|auto]. }
        now apply (H2 _ H).
      + apply X. rewrite (W [] (txt "zip") (txt "dict)") H). right. right. now left.
      + apply X. rewrite (W [] (txt "zip") (txt "back)") H). right. right. now left.
    - assert (W : forall w x, named name ds = w ++ LPAREN :: x -> name = w).
      { intros w x Q. symmetry. apply (paren_once name ds [] w x); auto. apply digits_no_open, D. }
      rewrite negb_true_iff in Hx. destruct (proj1 P eq_refl) as [H|H].
      + rewrite (W (txt "hilbert") _ H) in Hx. discriminate.
      + rewrite (W (txt "Hilbert") _ H) in Hx. discriminate.
  Qed.
  Lemma named_nesting name ds : plain name -> digits ds -> nesting_below 65536 (named name ds).
  Proof.
    intros Hp [_ D] x y E. assert (C : (count LPAREN (named name ds) <= 1)%nat).
    { unfold named. change (LPAREN :: ds ++ [RPAREN]) with ([LPAREN] ++ ds ++ [RPAREN]). rewrite !count_app, (count_plain LPAREN name Hp special_open).
      rewrite (count_plain LPAREN ds); [cbn; lia| |exact special_open]. eapply Forall_impl; [|exact D]. cbn. unfold special, LPAREN, RPAREN, COMMA. intros c Hc. lia. }
    rewrite E, count_app in C. lia.
  Qed.
  (** The usage text of src/main.rs *)
  Lemma reduce_colors_rejected ds : digits ds -> exists e, any_codec_from_str p d parse_f64 (txt "reduce-colors(" ++ ds ++ txt ")") = PErr e.
  Proof.
    intros D. change (txt "reduce-colors(" ++ ds ++ txt ")") with (named (txt "reduce-colors") ds).
    assert (P : plain (txt "reduce-colors")) by now apply plainb_ok.
    assert (NP : ~ In LPAREN (txt "reduce-colors")) by (intros I; unfold plain in P; rewrite Forall_forall in P; apply (P _ I); now left).
    apply named_rejected; auto using named_nesting.
    - now apply ascii_txt_check.
    - apply named_none; auto.
    - apply named_none; auto.
  Qed.
  (** A number that does not fit *)
  Lemma too_big_rejected w ds : In w (cluster_words ++ voronoi_words) -> digits ds -> (2 ^ 64 <= number ds)%N ->
    exists e, any_codec_from_str p d parse_f64 (w ++ txt "(" ++ ds ++ txt ")") = PErr e.
  Proof.
    intros Hw D L. change (w ++ txt "(" ++ ds ++ txt ")") with (named w ds).
    assert (B : forallb plainb (cluster_words ++ voronoi_words) = true) by reflexivity. rewrite forallb_forall in B. pose proof (plainb_ok _ (B w Hw)) as P.
    assert (NP : ~ In LPAREN w) by (intros I; unfold plain in P; rewrite Forall_forall in P; apply (P _ I); now left).
    assert (ALL : forall words, (In w words \/ existsb (has_suffix w) words = false) -> Forall (fun w => ~ In LPAREN w) words -> forall n, ~ numbered words (named w ds) n).
    { intros words [Hi|Hs] Hp n H; [|now apply (named_none words w ds NP D Hs n)].
      destruct (numbered_value words _ ds n Hp (named_first words w ds Hi D) H) as [_ L2]. lia. }
    apply named_rejected; auto using named_nesting.
    - now apply (in_words_ascii (cluster_words ++ voronoi_words)).
    - apply ALL; [|exact cluster_words_ok]. apply in_app_iff in Hw as [Hw|[<-|[]]]; [now left|right; reflexivity].
    - apply ALL; [|exact voronoi_words_ok]. apply in_app_iff in Hw as [Hw|Hw]; [|now left]. right.
      unfold cluster_words in Hw. cbn [In] in Hw. repeat destruct Hw as [<-|Hw]; try reflexivity. destruct Hw.
    - rewrite negb_true_iff. cbn [app In cluster_words voronoi_words] in Hw. repeat destruct Hw as [<-|Hw]; try reflexivity. destruct Hw.
  Qed.
  (** Text that is not ASCII *)
  Lemma wide_selects s c : ~ ascii s -> nesting_below 65536 s \/ p = Debug -> any_codec_from_str p d parse_f64 s = POk c ->
    exists n, c = ClusterColors n \/ c = VoronoiCluster n.
  Proof.
    intros Hw Hn. pose proof (wide_rejected p s Hw Hn) as WR. rewrite from_str_order.
    unfold cluster_from_str. destruct (number_in (cluster_re d) s) as [n| |]; cbn [pbind]; [intros Q; injection Q as <-; eauto| |discriminate].
    unfold voronoi_from_str. destruct (number_in (voronoi_re d) s) as [n| |]; cbn [pbind]; [intros Q; injection Q as <-; eauto| |discriminate].
    destruct (delta_cases s) as [C3 _]. destruct (delta_from_str s) as [c3| |] eqn:F3; [intros _; exfalso| |discriminate].
    { destruct (proj1 (C3 c3) eq_refl) as [-> _]. apply Hw. now apply ascii_txt_check. }
    unfold hilbert_from_str. destruct (fun_call p s) as [r| |] eqn:F; [now destruct (WR r)| |discriminate]. cbn [or_other pbind].
    destruct (hufman_cases s) as [C5 _]. destruct (hufman_from_str s) as [c5| |] eqn:F5; [intros _; exfalso| |discriminate].
    { destruct (proj1 (C5 c5) eq_refl) as [H _]. apply Hw. assert (L : ascii (txt "hufman")) by now apply ascii_txt_check.
      clear - H L. induction H as [|x l s t Hx Hs IH]; [constructor|]. inversion_clear L. constructor; [lia|now apply IH]. }
    unfold zip_from_str. rewrite F. cbn [or_other pbind]. discriminate.
  Qed.
End Spellings.

(** Any text around a number selects cluster-colors, even a call of another codec. *)
Definition ascii_digit_class (c : N) : bool := ((48 <=? c) && (c <=? 57))%N.
Lemma inside_other p f : any_codec_from_str p ascii_digit_class f (txt "hilbert(ccol(5))") = POk (ClusterColors 5)
  /\ any_codec_from_str p ascii_digit_class f (txt "xvoronoi(007)+c-col(18446744073709551616)") = POk (VoronoiCluster 7)
  /\ any_codec_from_str p ascii_digit_class f (txt "Hilbert(rle)") = POk (Hilbert (RLE (f64_of_N 0)))
  /\ any_codec_from_str p ascii_digit_class f (txt "hilbert(zip)") = POk (Hilbert MZip)
  /\ any_codec_from_str p ascii_digit_class f (txt "HufMAN") = POk Hufman
  /\ any_codec_from_str p ascii_digit_class f (txt "delta") = POk Delta
  /\ any_codec_from_str p ascii_digit_class f (txt "zip(dict)") = POk (Zip ZDict)
  /\ any_codec_from_str p ascii_digit_class f (txt "zip(back)") = POk (Zip ZBack)
  /\ (forall x, f (txt "2.5") = Some x -> any_codec_from_str p ascii_digit_class f (txt "hilbert(rle(2.5))") = POk (Hilbert (RLE x)))
  /\ any_codec_from_str p ascii_digit_class f (txt "hilbert(rle())") = PPanic
  /\ any_codec_from_str p ascii_digit_class f (E_ACUTE :: txt "(x)") = PPanic.
Proof.
  splits; try (destruct p; reflexivity). intros x Hx. rewrite from_str_order.
  change (cluster_from_str ascii_digit_class (txt "hilbert(rle(2.5))")) with (@PErr any_codec Other).
  change (voronoi_from_str ascii_digit_class (txt "hilbert(rle(2.5))")) with (@PErr any_codec Other).
  change (delta_from_str (txt "hilbert(rle(2.5))")) with (@PErr any_codec (WrongName (txt "hilbert(rle(2.5))"))). unfold hilbert_from_str.
  replace (fun_call p (txt "hilbert(rle(2.5))")) with (Ok (txt "hilbert", [txt "rle(2.5)"])) by (destruct p; reflexivity). cbn [or_other pbind].
  change (matches_fully (txt "hilbert") hilbert_re) with (Some (txt "hilbert")). cbn [opt_or pbind List.length Nat.eqb negb]. rewrite method_order. unfold parse_rle.
  change (matches_fully (txt "rle(2.5)") (lit (txt "rle"))) with (@None text).
  replace (fun_call p (txt "rle(2.5)")) with (Ok (txt "rle", [txt "2.5"])) by (destruct p; reflexivity). cbn [or_other pbind].
  change (matches_fully (txt "rle") (lit (txt "rle"))) with (Some (txt "rle")). cbn [opt_or pbind List.length Nat.ltb Nat.leb]. rewrite Hx. reflexivity.
Qed.
Lemma ascii_digit_class_ok : digit_class_ok ascii_digit_class.
Proof. intros c _. reflexivity. Qed.

(** ** The command line (src/main.rs) *)
From Verif Require Import Main.
Lemma strip_prefix_some pre : forall s r, strip_prefix s pre = Some r <-> s = pre ++ r.
Proof.
  induction pre as [|x pre IH]; intros s r.
  - destruct s; cbn; (split; intros E; [injection E as ->; reflexivity|now rewrite <- E]).
  - destruct s as [|c s]; cbn [strip_prefix app]; [split; discriminate|]. destruct (N.eqb_spec x c) as [->|N].
    + rewrite IH. split; [intros ->; reflexivity|intros E; now injection E].
    + split; [discriminate|]. intros E. injection E as E _. congruence.
Qed.
Lemma main_spec p d f args a : main p d f args = Ok a <->
  (exists paths, args = txt "--special=hilbert" :: paths /\ a = Linearize paths)
  \/ (exists s c paths, args = (txt "--codec=" ++ s) :: paths /\ any_codec_from_str p d f s = POk c /\ a = Measure c paths).
Proof.
  unfold main, try_special, try_bench, separate_args. destruct args as [|cmd paths]; cbn [res_bind].
  { split; [discriminate|]. intros [(ps & E & _)|(s & c & ps & E & _)]; discriminate. }
  destruct (strip_prefix cmd (txt "--special=")) as [r|] eqn:S1.
  - apply strip_prefix_some in S1. subst cmd.
    assert (S2 : strip_prefix (txt "--special=" ++ r) (txt "--codec=") = None) by reflexivity. rewrite S2.
    destruct (text_eqb r (txt "hilbert")) eqn:T.
    + apply text_eqb_eq in T. subst r. split.
      * intros E. injection E as <-. left. exists paths. auto.
      * intros [(ps & E & ->)|(s & c & ps & E & _)]; [injection E as <-; reflexivity|discriminate].
    + split; [discriminate|]. intros [(ps & E & ->)|(s & c & ps & E & _)]; [|discriminate].
      change (txt "--special=hilbert") with (txt "--special=" ++ txt "hilbert") in E. injection E as -> _. discriminate.
  - destruct (strip_prefix cmd (txt "--codec=")) as [r|] eqn:S2.
    + apply strip_prefix_some in S2. subst cmd. split.
      * destruct (any_codec_from_str p d f r) as [c| |] eqn:F; try discriminate. intros E. injection E as <-. right. exists r, c, paths. auto.
      * intros [(ps & E & ->)|(s & c & ps & E & F & ->)]; [discriminate|]. injection E as <- <-. now rewrite F.
    + split; [discriminate|]. intros [(ps & E & ->)|(s & c & ps & E & _)].
      * injection E as -> _. discriminate.
      * assert (E' : cmd = txt "--codec=" ++ s) by (now injection E). apply strip_prefix_some in E'. congruence.
Qed.
Lemma main_otherwise p d f args : (forall a, main p d f args <> Ok a) <-> main p d f args = Panic.
Proof.
  split; [|intros ->; discriminate]. intros H. unfold main in *. destruct (try_special args) as [a| |]; [now destruct (H a)| |reflexivity].
  destruct (try_bench p d f args) as [a| |]; [now destruct (H a)|reflexivity|reflexivity].
Qed.
Lemma main_case p f :
  main p ascii_digit_class f [txt "--codec=zip(dict)"; txt "a.png"; txt "b.png"] = Ok (Measure (Zip ZDict) [txt "a.png"; txt "b.png"])
  /\ main p ascii_digit_class f [txt "--special=hilbert"; txt "a.png"] = Ok (Linearize [txt "a.png"])
  /\ main p ascii_digit_class f [txt "--special=other"; txt "a.png"] = Panic
  /\ main p ascii_digit_class f [] = Panic.
Proof. destruct p; splits; reflexivity. Qed.
