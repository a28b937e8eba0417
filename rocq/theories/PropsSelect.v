(** * Properties C49 and C57 (the FromStr implementations, src/codec.rs, src/main.rs).

    [d] is the class [\d] of the regex crate and [f] is [f64::from_str]. *)
From Coq Require Import String.
From Verif Require Import Base Prs PrsSpec PrsTop Img Float HilbertC Select SelectSpec SelectProofs Main SelectTop SelectAllSpec SelectAll.
Close Scope string_scope.
Open Scope list_scope.

(** C49: all ASCII texts *)
Theorem C49_selection : forall p d f, digit_class_ok d -> forall s, ascii s -> nesting_below 65536 s ->
  (forall c, any_codec_from_str p d f s = POk c <-> selects f s c)
  /\ (any_codec_from_str p d f s = PPanic <-> s = txt "hilbert(rle())" \/ s = txt "Hilbert(rle())").
Proof. exact from_str_spec. Qed.
Print Assumptions C49_selection.
(** All texts, with digits of any script and of any nesting *)
Theorem C49_all : forall p d f, digit_class_ok d -> forall s,
  (forall c, any_codec_from_str p d f s = POk c <-> any_selects p d f s c)
  /\ (any_codec_from_str p d f s = PPanic <-> select_aborts p d s).
Proof. exact from_str_all. Qed.
Print Assumptions C49_all.
Example C49_all_case : digit_class_ok more_digits
  /\ (forall f, any_codec_from_str Release more_digits f deep_zip = POk (Zip ZDict) /\ any_codec_from_str Debug more_digits f deep_zip = PPanic)
  /\ (forall f, any_selects Release more_digits f deep_zip (Zip ZDict)) /\ select_aborts Debug more_digits deep_zip
  /\ (forall p f, any_codec_from_str p ascii_digit_class f two_numbers = POk (VoronoiCluster 5) /\ exists e, any_codec_from_str p more_digits f two_numbers = PErr e).
Proof. exact select_all_case. Qed.
Theorem C49_cluster_colors : forall p d f, digit_class_ok d -> forall w ds, In w cluster_words -> digits ds -> (number ds < 2 ^ 64)%N ->
  any_codec_from_str p d f (w ++ txt "(" ++ ds ++ txt ")") = POk (ClusterColors (number ds)).
Proof. exact cluster_spelling. Qed.
Print Assumptions C49_cluster_colors.
Theorem C49_voronoi : forall p d f, digit_class_ok d -> forall ds, digits ds -> (number ds < 2 ^ 64)%N ->
  any_codec_from_str p d f (txt "voronoi(" ++ ds ++ txt ")") = POk (VoronoiCluster (number ds)).
Proof. exact voronoi_spelling. Qed.
Print Assumptions C49_voronoi.
Theorem C49_too_big : forall p d f, digit_class_ok d -> forall w ds, In w (cluster_words ++ voronoi_words) -> digits ds -> (2 ^ 64 <= number ds)%N ->
  exists e, any_codec_from_str p d f (w ++ txt "(" ++ ds ++ txt ")") = PErr e.
Proof. exact too_big_rejected. Qed.
Print Assumptions C49_too_big.
(** The codec of the usage text does not exist. *)
Theorem C49_usage_refuted : forall p d f, digit_class_ok d -> forall ds, digits ds ->
  exists e, any_codec_from_str p d f (txt "reduce-colors(" ++ ds ++ txt ")") = PErr e.
Proof. exact reduce_colors_rejected. Qed.
Print Assumptions C49_usage_refuted.
(** Other text selects at most the codecs that search for a number. *)
Theorem C49_not_ascii : forall p d f s c, ~ ascii s -> nesting_below 65536 s \/ p = Debug -> any_codec_from_str p d f s = POk c ->
  exists n, c = ClusterColors n \/ c = VoronoiCluster n.
Proof. exact wide_selects. Qed.
Print Assumptions C49_not_ascii.
Example C49_class : digit_class_ok ascii_digit_class.
Proof. exact ascii_digit_class_ok. Qed.
Example C49_case : forall p f,
  any_codec_from_str p ascii_digit_class f (txt "hilbert(ccol(5))") = POk (ClusterColors 5)
  /\ any_codec_from_str p ascii_digit_class f (txt "xvoronoi(007)+c-col(18446744073709551616)") = POk (VoronoiCluster 7)
  /\ any_codec_from_str p ascii_digit_class f (txt "Hilbert(rle)") = POk (Hilbert (RLE (f64_of_N 0)))
  /\ any_codec_from_str p ascii_digit_class f (txt "hilbert(zip)") = POk (Hilbert MZip)
  /\ any_codec_from_str p ascii_digit_class f (txt "HufMAN") = POk Hufman
  /\ any_codec_from_str p ascii_digit_class f (txt "delta") = POk Delta
  /\ any_codec_from_str p ascii_digit_class f (txt "zip(dict)") = POk (Zip ZDict)
  /\ any_codec_from_str p ascii_digit_class f (txt "zip(back)") = POk (Zip ZBack)
  /\ (forall x, f (txt "2.5") = Some x -> any_codec_from_str p ascii_digit_class f (txt "hilbert(rle(2.5))") = POk (Hilbert (RLE x)))
  /\ any_codec_from_str p ascii_digit_class f (txt "hilbert(rle())") = PPanic
  /\ any_codec_from_str p ascii_digit_class f (E_ACUTE :: txt "(x)") = PPanic.
Proof. exact inside_other. Qed.

(** C57 *)
Theorem C57_dispatch : forall p d f args a, main p d f args = Ok a <->
  (exists paths, args = txt "--special=hilbert" :: paths /\ a = Linearize paths)
  \/ (exists s c paths, args = (txt "--codec=" ++ s) :: paths /\ any_codec_from_str p d f s = POk c /\ a = Measure c paths).
Proof. exact main_spec. Qed.
Print Assumptions C57_dispatch.
Theorem C57_otherwise_aborts : forall p d f args, (forall a, main p d f args <> Ok a) <-> main p d f args = Panic.
Proof. exact main_otherwise. Qed.
Print Assumptions C57_otherwise_aborts.
Example C57_case : forall p f,
  main p ascii_digit_class f [txt "--codec=zip(dict)"; txt "a.png"; txt "b.png"] = Ok (Measure (Zip ZDict) [txt "a.png"; txt "b.png"])
  /\ main p ascii_digit_class f [txt "--special=hilbert"; txt "a.png"] = Ok (Linearize [txt "a.png"])
  /\ main p ascii_digit_class f [txt "--special=other"; txt "a.png"] = Panic
  /\ main p ascii_digit_class f [] = Panic.
Proof. exact main_case. Qed.
