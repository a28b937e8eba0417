(** * Property C76: what the encoders write, and what the errors in the table mean. *)
From Coq Require Import String Reals.
From Flocq Require Import BinarySingleNaN.
From Verif Require Import Base Prs Float Img HilbertC Huf HufSpec HufTop CodecSpec CodecCases ClusterC Select Bench BenchSpec PropsBench EncodeBytes Special Program ProgramSpec PropsProgram Diagrams DiagramSpec DiagramTop ForeignSpec HeaderTop.
Close Scope string_scope.
Open Scope list_scope.

(** C76: every encoder writes bytes, *)
Theorem C76_bytes : forall E c im data, img_ok im -> env_ok E im -> (if any_is_lossless c then True else pixels im < 2 ^ 32 /\ ord_ok (e_ord2 E))%N ->
  any_encode E c im = Some (Ok data) -> Forall u8_ok data.
Proof. exact encoded_bytes. Qed.
Print Assumptions C76_bytes.
(** so what is decoded from them, also with another environment, is an opaque image. *)
Theorem C76_decoded : forall E E' c im data y, img_ok im -> env_ok E im -> (if any_is_lossless c then True else pixels im < 2 ^ 32 /\ ord_ok (e_ord2 E))%N ->
  any_encode E c im = Some (Ok data) -> any_decode E' c data = Some (Ok y) -> img_ok y /\ is_opaque y.
Proof. exact decoded_ok. Qed.
Print Assumptions C76_decoded.
(** The encoders without zip write the width and the height first, four bytes each, *)
Theorem C76_header : forall E c im data, img_ok im -> is_zip c = false -> any_encode E c im = Some (Ok data) -> exists rest, data = dims im ++ rest.
Proof. exact header_first. Qed.
Print Assumptions C76_header.
(** and with every codec an image that comes back has the dimensions of the original. *)
Theorem C76_dimensions : forall E E' c im data y, img_ok im -> env_ok E im -> (if any_is_lossless c then True else pixels im < 2 ^ 32 /\ ord_ok (e_ord2 E))%N ->
  (c = Zip ZBack -> 11 * pixels im + 8 < 2 ^ 64)%N -> (c = Zip ZDict -> 2 <= e_stack E')%nat ->
  any_encode E c im = Some (Ok data) -> any_decode E' c data = Some (Ok y) -> im_w y = im_w im /\ im_h y = im_h im.
Proof. exact same_dimensions. Qed.
Print Assumptions C76_dimensions.
(** The error in a record, whatever the codec: zero, or between 2^-40 and 2^18; and zero
    exactly if the image came back with the same colours. *)
Theorem C76_error : forall p sg opens E E' c r, usable opens E c (rec_name r) -> describes p (B754_zero sg) opens E E' c r ->
  usual_error (rec_error r) /\ (feq (rec_error r) (f64_of_N 0) = true <-> came_back opens E E' c r).
Proof. exact described_error. Qed.
Print Assumptions C76_error.
Definition all_codecs : list any_codec := Hilbert (RLE (B754_infinity false)) :: ClusterColors 2 :: VoronoiCluster 2 :: all_lossless.
Definition env2 : env := mkEnv Release curve (fun l => l) (@rev _) (@rev _) (@list_heap _) (@list_heap _) (fun _ => 6%nat) (mkOr (fun l => l) (fun _ => 0%N) 100 100) 100 100.
Example C76_case : env_ok env2 pic /\ img_ok pic /\ ord_ok (e_ord2 env2) /\ usable two_files (fun _ => env2) (ClusterColors 2) (txt "a.png")
  /\ map (fun c => match any_encode env2 c pic with Some (Ok data) => match any_decode env2 c data with Some (Ok y) => (1 <=? length (im_px y))%nat | _ => false end | _ => false end) all_codecs
     = map (fun _ => true) all_codecs.
Proof.
  assert (He : env_ok env2 pic) by (destruct C56_case as [[H1 H2 H3 H4 H5 H6 H7] _]; split; assumption).
  assert (Ho : ord_ok (e_ord2 env2)) by (intros l; cbn; apply Permutation.Permutation_sym, Permutation.Permutation_rev).
  split; [exact He|]. split; [exact pic_ok|]. split; [exact Ho|]. split; [|vm_compute; reflexivity].
  exists pic. split; [reflexivity|]. split; [exact pic_ok|]. split; [cbn; lia|]. split; [exact He|]. intros _. exact Ho.
Qed.
