(** * Property C85: the experiment scripts (scripts/experiments).

    [sheet l] is the file of a dump whose pixels are [l] (C82, C83). *)
From Coq Require Import String Permutation Sorted.
From Verif Require Import Base Ser Prs SelectSpec Img CodecSpec Special DumperSpec Experiments ExperimentsSpec ExperimentsTop.
Close Scope string_scope.
Open Scope list_scope.

(** C85: hilbert_channels.py draws three curves: the red channel in red, the blue channel
    in green, and the green channel in blue *)
Theorem C85_channels : forall l, channels (sheet l) = Some [(txt "red", map red l); (txt "green", map blue l); (txt "blue", map green l)].
Proof. exact channels_dump. Qed.
Print Assumptions C85_channels.
(** because the dump exchanges two headings; so the green curve is not the green channel. *)
Theorem C85_channels_refuted : exists l curve, In (txt "green", curve) (match channels (sheet l) with Some c => c | None => [] end) /\ curve <> map green l.
Proof. exact green_is_blue. Qed.
Print Assumptions C85_channels_refuted.
(** hilbert_distribution.py shows every difference of a channel between neighbouring pixels once,
    with its number of occurrences; the numbers add up to one less than the pixels, and the
    differences fit into nine bits with sign.  The same two channels are exchanged. *)
Theorem C85_distribution : forall l vr vg vb, distribution (sheet l) (txt "red") vr -> distribution (sheet l) (txt "green") vg -> distribution (sheet l) (txt "blue") vb ->
  (counts_of (jumps red l) vr /\ counts_of (jumps blue l) vg /\ counts_of (jumps green l) vb)
  /\ sum (map snd vr) = N.of_nat (List.length l - 1) /\ sum (map snd vg) = N.of_nat (List.length l - 1) /\ sum (map snd vb) = N.of_nat (List.length l - 1)
  /\ (Forall rgba_ok l -> Forall (fun e => (-255 <= fst e <= 255)%Z) (vr ++ vg ++ vb)).
Proof. exact distributions. Qed.
Print Assumptions C85_distribution.
(** It fails on no dump. *)
Theorem C85_distribution_exists : forall l colour, In colour [txt "red"; txt "green"; txt "blue"] -> exists vc, distribution (sheet l) colour vc.
Proof. exact distributions_exist. Qed.
Print Assumptions C85_distribution_exists.
(** png_stats.py fails on sets of images in which no dimensions occur exactly once. *)
Theorem C85_dimensions_fail : forall sizes, dim_bars sizes = None <-> forall s, images_with s sizes <> 1%N.
Proof. exact bars_none. Qed.
Print Assumptions C85_dimensions_fail.
(** Otherwise it shows a bar for all dimensions of two or more images, the most frequent first,
    and one for the images that are alone; the bars add up to the number of images. *)
Theorem C85_dimensions : forall sizes bars, dim_bars sizes = Some bars ->
  exists ds front n, bars = front ++ [(txt "singles", n)]
  /\ Forall2 (fun s b => names_dims s (fst b) /\ snd b = images_with s sizes) ds front
  /\ NoDup ds /\ (forall s, In s ds <-> (2 <= images_with s sizes)%N) /\ StronglySorted (fun a b => images_with b sizes <= images_with a sizes)%N ds
  /\ n = N.of_nat (List.length (filter (fun s => images_with s sizes =? 1)%N sizes)) /\ (0 < n)%N /\ sum (map snd bars) = N.of_nat (List.length sizes).
Proof. exact bars_some. Qed.
Print Assumptions C85_dimensions.
(** The number of colours of an image is that of its different pixels; *)
Theorem C85_colours : forall im, img_ok im -> exists n, ncolors im = Some n /\ different (map to_rgb (im_px im)) n.
Proof. exact ncolors_ok. Qed.
Print Assumptions C85_colours.
(** but the bars of its `color distribution' are not colours: there is one for every value
    that some channel of some pixel has, and they add up to three times the pixels. *)
Theorem C85_colour_bars : forall im, different (values im) (N.of_nat (List.length (colour_bars im)))
  /\ (exists vc, counts_of (fun v => N.of_nat (List.length (filter (fun x => N.eqb x v) (values im)))) vc /\ colour_bars im = rev (map snd vc))
  /\ sum (colour_bars im) = (3 * N.of_nat (List.length (im_px im)))%N.
Proof. exact colour_bars_ok. Qed.
Print Assumptions C85_colour_bars.
Theorem C85_colour_bars_refuted : exists im n, img_ok im /\ ncolors im = Some n /\ N.of_nat (List.length (colour_bars im)) <> n.
Proof. exact bars_not_colours. Qed.
Print Assumptions C85_colour_bars_refuted.
Example C85_case : let l := [((1, 2, 3), 255); ((5, 2, 1), 255); ((9, 2, 3), 255)]%N in
  channels (sheet l) = Some [(txt "red", [1; 5; 9]%Z); (txt "green", [3; 1; 3]%Z); (txt "blue", [2; 2; 2]%Z)]
  /\ distribution (sheet l) (txt "red") [(4%Z, 2%N)]
  /\ dim_bars [(3, 2); (12, 3); (2, 3); (12, 3); (3, 2); (12, 3); (1, 23)]%N = Some [(txt "12x3", 3%N); (txt "3x2", 2%N); (txt "singles", 2%N)]
  /\ dim_bars [(3, 2); (3, 2)]%N = None.
Proof.
  split; [reflexivity|]. split; [|split; reflexivity]. exists [1; 5; 9]%Z. split; [reflexivity|]. eexists. split; [apply Permutation_refl|reflexivity].
Qed.
