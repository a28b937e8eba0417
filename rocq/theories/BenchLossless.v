(** * Lossless codecs pass the benchmark. *)
From Coq Require Import ZArith NArith Lia.
From Flocq Require Import BinarySingleNaN.
From Verif Require Import Base Ser SerSpec SerProofs Float Huf HufSpec Back BackSpec BackDec Img HilbertC CodecSpec CodecBytes CodecZip CodecHilbert CodecTop
  CodecFinal Select Bench BenchSpec BenchTop.

Lemma opaque_ok im : img_ok im -> img_ok (opaque im).
Proof.
  intros (H1 & H2 & H3 & H4 & H5). unfold opaque. split; [exact H1|]. split; [exact H2|]. split; [exact H3|]. cbn. rewrite map_length. split; [exact H4|].
  apply Forall_map. revert H5. apply Forall_impl. intros [c a] [Hc _]. split; [exact Hc|reflexivity].
Qed.
Lemma opaque_rgb im : map to_rgb (im_px (opaque im)) = map to_rgb (im_px im).
Proof. unfold opaque. cbn. rewrite map_map. reflexivity. Qed.

Lemma some_inj {A} (a b : A) : Some a = Some b -> a = b.
Proof. now intros [= ->]. Qed.
Lemma same_ok {A} (x : res A) a b : x = Ok a -> x = Ok b -> a = b.
Proof. congruence. Qed.
Lemma decodes E c im data : any_is_lossless c = true -> img_ok im -> im_px im <> [] -> (pixels im < 2 ^ 32)%N -> env_ok E im ->
  any_encode E c im = Some (Ok data) ->
  exists f0, forall E', e_scan E' = e_scan E -> (2 <= e_stack E')%nat -> (f0 <= e_fuel E')%nat -> any_decode E' c data = Some (Ok (opaque im)).
Proof.
  intros Hl Hi Hp Hn [O1 O2 O3 O4 O5 O6 O7] He. assert (Y : yields list_next data data []) by (rewrite <- (app_nil_r data) at 1; apply yields_list).
  assert (Zi : (length (zip_input im) < e_fuel E)%nat) by (pose proof (zip_input_len im Hi); unfold pixels in *; lia).
  destruct c as [n|n| |m| |k]; cbn [any_is_lossless] in Hl; cbn [any_encode] in He; try discriminate Hl; apply some_inj in He.
  - destruct (delta_lossless (e_profile E) (e_scan E) (e_ord_diff E) (e_heap_diff E) im Hi O6 Hp O2 O4) as (out & R & D).
    assert (Eo : out = data) by (apply same_ok with (1 := R) (2 := He)). subst out. rename D into D0. destruct (D0 Debug _ _ _ _ Y) as [f1 D1]. destruct (D0 Release _ _ _ _ Y) as [f2 D2].
    exists (max f1 f2). intros E' Es Hst Hf. cbn [any_decode]. rewrite Es. destruct (e_profile E'); [apply D1|apply D2]; lia.
  - destruct (hilbert_lossless (e_scan E) im (e_fuel E) 2 m Hi O6 Hl) as (out & R & _); [unfold pixels in *; lia|lia|].
    assert (Eo : out = data) by (apply same_ok with (1 := R) (2 := He)). subst out. exists 0%nat. intros E' Es Hst _. cbn [any_decode]. rewrite Es.
    destruct (hilbert_lossless (e_scan E) im (e_fuel E) (e_stack E') m Hi O6 Hl) as (out & R' & D); [unfold pixels in *; lia|exact Hst|].
    assert (Eo : out = data) by (apply same_ok with (1 := R') (2 := He)). subst out. f_equal. now apply D with [].
  - destruct (hufman_lossless (e_ord E) (e_heap E) im Hi O1 O3 Hp) as (out & R & D).
    assert (Eo : out = data) by (apply same_ok with (1 := R) (2 := He)). subst out. destruct (D _ _ _ _ Y) as [f1 D1]. exists f1. intros E' _ _ Hf. cbn [any_decode]. now apply D1.
  - exists 0%nat. intros E' _ Hst _. cbn [any_decode]. f_equal. destruct k.
    + destruct (zip_dict_lossless (e_profile E) (e_caps E) im (e_fuel E) (e_stack E') Hi Zi Hst) as (out & R & D).
      assert (Eo : out = data) by (apply same_ok with (1 := R) (2 := He)). subst out. now apply D with [].
    + refine (zip_back_lossless (e_profile E) (e_caps E) im (e_fuel E) data Hi _ O5 Zi _ _ _ _ [] _ _ Y); [unfold pixels in *; lia|exact He].
Qed.
Lemma encodes E c im : any_is_lossless c = true -> (c = Zip ZBack -> 8 + 11 * pixels im <= 32767)%N -> img_ok im -> im_px im <> [] -> env_ok E im ->
  exists data, any_encode E c im = Some (Ok data).
Proof.
  intros Hl Hc Hi Hp [O1 O2 O3 O4 O5 O6 O7].
  assert (Zi : (length (zip_input im) < e_fuel E)%nat) by (pose proof (zip_input_len im Hi); unfold pixels in *; lia).
  destruct c as [n|n| |m| |k]; cbn [any_is_lossless] in Hl; try discriminate Hl; cbn [any_encode].
  - destruct (delta_lossless (e_profile E) (e_scan E) (e_ord_diff E) (e_heap_diff E) im Hi O6 Hp O2 O4) as (out & R & _). exists out. now rewrite R.
  - destruct (hilbert_lossless (e_scan E) im (e_fuel E) 2 m Hi O6 Hl) as (out & R & _); [unfold pixels in *; lia|lia|]. exists out. now rewrite R.
  - destruct (hufman_lossless (e_ord E) (e_heap E) im Hi O1 O3 Hp) as (out & R & _). exists out. now rewrite R.
  - destruct k.
    + destruct (zip_dict_lossless (e_profile E) (e_caps E) im (e_fuel E) 2 Hi Zi ltac:(lia)) as (out & R & _). exists out. now rewrite R.
    + specialize (Hc eq_refl). rewrite zip_encode_back.
      destruct (back_short _ zip_bytes_next (zip_bytes im) (zip_input im) (e_profile E) (e_caps E) (e_fuel E) (zip_bytes_deliver _ Hi) O5 Zi) as [out R];
        [pose proof (zip_input_len im Hi); unfold pixels in *; lia|]. exists out. now rewrite R.
Qed.
Lemma passes_check E c im data p s name saves : any_is_lossless c = true -> img_ok im -> (0 < pixels im < 2 ^ 32)%N -> (p = Debug -> 24 * pixels im < 2 ^ 32)%N ->
  env_ok E im -> any_encode E c im = Some (Ok data) ->
  exists f0, forall E', e_scan E' = e_scan E -> (2 <= e_stack E')%nat -> (f0 <= e_fuel E')%nat ->
  exists ratio e, measure_one p (B754_zero s) (any E E' c) name (Some im) saves = Some (Ok (name, N.of_nat (length data), ratio, e))
  /\ feq e (f64_of_N 0) = true.
Proof.
  intros Hl Hi Hn Hd He Henc. assert (Hp : im_px im <> []).
  { intros E0. destruct Hi as (_ & _ & _ & L & _). rewrite E0 in L. unfold pixels in Hn. cbn in L. lia. }
  destruct (decodes E c im data Hl Hi Hp (proj2 Hn) He Henc) as [f0 D]. exists f0. intros E' Es Hst Hf. specialize (D E' Es Hst Hf).
  destruct (error_same_size p s im (opaque im) Hi (opaque_ok im Hi) eq_refl eq_refl Hn) as (e & Ee & _ & _ & Ze).
  assert (Z : feq e (f64_of_N 0) = true) by (apply Ze; symmetry; apply opaque_rgb).
  unfold measure_one, any. cbn [enc dec lossless]. rewrite Henc, D, Ee, Z. cbn [negb].
  destruct (raw_size p im) as [raw| |] eqn:Er.
  - exists (fmul (fdiv (f64_of_N (N.of_nat (length data))) (f64_of_N raw)) (f64_of_N 100)), e. split; [reflexivity|exact Z].
  - exfalso. rewrite raw_size_spec in Er. destruct (_ <? _)%N; [discriminate|destruct p; discriminate].
  - exfalso. rewrite raw_size_spec in Er. destruct (N.ltb_spec (24 * pixels im) (2 ^ 32)) as [C|C]; [discriminate|]. destruct p; [|discriminate].
    specialize (Hd eq_refl). lia.
Qed.
(** A lossless codec gets a record only for an image that came back right *)
Lemma record_right p s c name im saves r : lossless c = true -> img_ok im -> (0 < pixels im < 2 ^ 32)%N ->
  (forall data y, dec c data = Some (Ok y) -> Forall rgba_ok (im_px y)) ->
  measure_one p (B754_zero s) c name (Some im) saves = Some (Ok r) ->
  exists data y, enc c im = Some (Ok data) /\ dec c data = Some (Ok y)
  /\ (forall i a b, nth_error (im_px im) i = Some a -> nth_error (im_px y) i = Some b -> to_rgb a = to_rgb b).
Proof.
  intros Hl Hi Hn Hd. unfold measure_one. destruct (enc c im) as [[data| |]|]; try discriminate. destruct (raw_size p im) as [raw| |]; try discriminate.
  destruct (dec c data) as [[y| |]|] eqn:D; try discriminate. destruct (error_spec p s im y Hi (Hd _ _ D) Hn) as (e & E & _ & _ & Z). rewrite E, Hl.
  destruct (feq e (f64_of_N 0)) eqn:F; [|destruct saves; discriminate]. intros _. exists data, y. split; [reflexivity|]. split; [exact D|]. now apply Z.
Qed.
