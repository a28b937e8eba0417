(** * Runs of the benchmark in which images are overwritten. *)
From Coq Require Import String Lia.
From Flocq Require Import BinarySingleNaN.
From Verif Require Import Base Prs Float Img HilbertC CodecSpec CodecCases Select Bench BenchSpec BenchPar Special Images ImagesSpec Program ProgramSpec DistTop PropsBench ImagesProofs.
Close Scope string_scope.
Open Scope list_scope.
Notation length := List.length.

(** hilbert(rle(442)) *)
Definition blur : any_codec := Hilbert (RLE (f64_of_N 442)).
Definition blur_codec (q : text) : codec := any env1 env1 blur.
(** A folder *)
Definition place (t : text) : N :=
  if text_eqb t (txt "a.png") then 0 else if text_eqb t (txt "output/a.png") then 1 else if text_eqb t (txt "x/a.png") then 2 else if text_eqb t (txt "y/a.jpg") then 3 else 4.
Definition album (n : N) : option img :=
  match n with 0%N => Some (reds [0; 100]%N) | 1%N => Some (reds [0; 50]%N) | 2%N => Some (reds [10; 20; 30]%N) | 3%N => Some (reds [7; 9]%N) | _ => None end.
Definition all_fine (t : text) : bool := true.
Notation bench paths := (isteps Debug (B754_zero false) blur_codec place all_fine paths).
Notation measured name im := (measure_one Debug (B754_zero false) (any env1 env1 blur) name (Some im) true).

Lemma measured_error name im b : match measured name im with Some (Ok r) => Bool.eqb (feq (rec_error r) (f64_of_N 0)) b | _ => false end = true ->
  exists r, measured name im = Some (Ok r) /\ feq (rec_error r) (f64_of_N 0) = b.
Proof. destruct (measured name im) as [[r| |]|]; try discriminate. intros H. exists r. split; [reflexivity|]. now apply Bool.eqb_prop. Qed.
Lemma album_ok n im : album n = Some im -> img_ok im.
Proof. destruct n as [|[[q|q|]|[q|q|]|]]; cbn; intros H; try discriminate; injection H as <-; apply reds_ok; cbn; try lia; repeat constructor; lia. Qed.

(** A task that opens its image, and saves the wrong one *)
Lemma whole_save paths i path im y f r ts fs : nth_error paths i = Some path -> nth_error ts i = Some PWaiting -> fs (place path) = Some im ->
  wrong_image Debug (B754_zero false) (any env1 env1 blur) im = Some y -> under_output path (txt "png") = Ok f -> measured path im = Some r ->
  bench paths (mkI ts fs) (mkI (upd i (PEnded r) (upd i (PSaving (place f) y r) (upd i (POpened (Some im)) ts))) (put_picture (place f) (Some y) (put_picture (place f) None fs))).
Proof.
  intros Hp Ht O W U M. pose proof (nth_upd_same (POpened (Some im)) ts i _ Ht) as H1. pose proof (nth_upd_same (PSaving (place f) y r) _ i _ H1) as H2.
  eapply isteps_cons; [eapply istep_open; eauto|]. rewrite O.
  eapply isteps_cons; [eapply (istep_create Debug (B754_zero false) blur_codec place all_fine) with (v := None); eauto|].
  eapply isteps_cons; [eapply istep_saved; [exact Hp|exact H2|reflexivity]|]. apply isteps_nil.
Qed.
(** A task whose image comes back unchanged *)
Lemma whole_keep paths i path im r ts fs : nth_error paths i = Some path -> nth_error ts i = Some PWaiting -> fs (place path) = Some im ->
  wrong_image Debug (B754_zero false) (any env1 env1 blur) im = None -> measured path im = Some r ->
  bench paths (mkI ts fs) (mkI (upd i (PEnded r) (upd i (POpened (Some im)) ts)) fs).
Proof.
  intros Hp Ht O W M. pose proof (nth_upd_same (POpened (Some im)) ts i _ Ht) as H1.
  eapply isteps_cons; [eapply istep_open; eauto|]. rewrite O. eapply isteps_cons; [eapply istep_end; eauto|]. apply isteps_nil.
Qed.
Lemma isteps_app p zero c node saves paths s s' s'' : isteps p zero c node saves paths s s' -> isteps p zero c node saves paths s' s'' -> isteps p zero c node saves paths s s''.
Proof. induction 1; intros H'; [exact H'|]. econstructor; eauto. Qed.

Definition both : list text := [txt "a.png"; txt "output/a.png"].
Lemma schedule : exists s s' r r', bench both (i_init both album) s /\ bench both (i_init both album) s' /\ complete s /\ complete s'
  /\ nth_error (i_tasks s) 1 = Some (PEnded (Ok r)) /\ nth_error (i_tasks s') 1 = Some (PEnded (Ok r'))
  /\ feq (rec_error r) (f64_of_N 0) = true /\ feq (rec_error r') (f64_of_N 0) = false.
Proof.
  destruct (measured_error (txt "a.png") (reds [0; 100]%N) false) as (r0 & M0 & _); [vm_compute; reflexivity|].
  destruct (measured_error (txt "output/a.png") (reds [50; 50]%N) true) as (r & M & Z); [vm_compute; reflexivity|].
  destruct (measured_error (txt "output/a.png") (reds [0; 50]%N) false) as (r' & M' & Z'); [vm_compute; reflexivity|].
  eexists. eexists. exists r, r'. split; [|split; [|split; [|split; [|split; [|split; [|split; [exact Z|exact Z']]]]]]].
  - eapply isteps_app.
    + eapply (whole_save both 0) with (im := reds [0; 100]%N) (y := reds [50; 50]%N) (f := txt "output/a.png"); [reflexivity|reflexivity|reflexivity|vm_compute; reflexivity|reflexivity|exact M0].
    + eapply (whole_keep both 1) with (im := reds [50; 50]%N); [reflexivity|reflexivity|reflexivity|vm_compute; reflexivity|exact M].
  - eapply isteps_app.
    + eapply (whole_save both 1) with (im := reds [0; 50]%N) (y := reds [25; 25]%N) (f := txt "output/a.png"); [reflexivity|reflexivity|reflexivity|vm_compute; reflexivity|reflexivity|exact M'].
    + eapply (whole_save both 0) with (im := reds [0; 100]%N) (y := reds [50; 50]%N) (f := txt "output/a.png"); [reflexivity|reflexivity|reflexivity|vm_compute; reflexivity|reflexivity|exact M0].
  - repeat constructor; eexists; (split; [reflexivity|discriminate]).
  - repeat constructor; eexists; (split; [reflexivity|discriminate]).
  - reflexivity.
  - reflexivity.
Qed.
Definition own : list text := [txt "output/a.png"].
Lemma overwritten : exists s, bench own (i_init own album) s /\ complete s /\ album (place (txt "output/a.png")) = Some (reds [0; 50]%N)
  /\ i_files s (place (txt "output/a.png")) = Some (reds [25; 25]%N).
Proof.
  destruct (measured_error (txt "output/a.png") (reds [0; 50]%N) false) as (r' & M' & Z'); [vm_compute; reflexivity|].
  eexists. split; [|split; [|split]].
  - eapply (whole_save own 0) with (im := reds [0; 50]%N) (y := reds [25; 25]%N) (f := txt "output/a.png"); [reflexivity|reflexivity|reflexivity|vm_compute; reflexivity|reflexivity|exact M'].
  - repeat constructor; eexists; (split; [reflexivity|discriminate]).
  - reflexivity.
  - vm_compute. reflexivity.
Qed.
Definition two : list text := [txt "x/a.png"; txt "y/a.jpg"].
Lemma two_apart : apart place two.
Proof.
  intros q q' n [<-|[<-|[]]] [<-|[<-|[]]] (f & U & ->); vm_compute in U; injection U as <-; vm_compute; discriminate.
Qed.
Lemma shared : exists s y y' n, bench two (i_init two album) s /\ complete s /\ belongs place (txt "x/a.png") n /\ belongs place (txt "y/a.jpg") n
  /\ changed Debug (B754_zero false) (any env1 env1 blur) (reds [10; 20; 30]%N) y /\ changed Debug (B754_zero false) (any env1 env1 blur) (reds [7; 9]%N) y'
  /\ i_files s n = Some y' /\ y <> y'.
Proof.
  destruct (measured_error (txt "x/a.png") (reds [10; 20; 30]%N) false) as (r & M & _); [vm_compute; reflexivity|].
  destruct (measured_error (txt "y/a.jpg") (reds [7; 9]%N) false) as (r' & M' & _); [vm_compute; reflexivity|].
  eexists. exists (reds [20; 20; 20]%N), (reds [8; 8]%N), 1%N. split; [|split; [|split; [|split; [|split; [|split; [|split]]]]]].
  - eapply isteps_app.
    + eapply (whole_save two 0) with (im := reds [10; 20; 30]%N) (y := reds [20; 20; 20]%N) (f := txt "output/a.png"); [reflexivity|reflexivity|reflexivity|vm_compute; reflexivity|reflexivity|exact M].
    + eapply (whole_save two 1) with (im := reds [7; 9]%N) (y := reds [8; 8]%N) (f := txt "output/a.png"); [reflexivity|reflexivity|reflexivity|vm_compute; reflexivity|reflexivity|exact M'].
  - repeat constructor; eexists; (split; [reflexivity|discriminate]).
  - exists (txt "output/a.png"). split; reflexivity.
  - exists (txt "output/a.png"). split; reflexivity.
  - apply wrong_changed. vm_compute. reflexivity.
  - apply wrong_changed. vm_compute. reflexivity.
  - vm_compute. reflexivity.
  - discriminate.
Qed.
Definition one : list text := [txt "x/a.png"].
Lemma one_case : apart place one /\ changed Debug (B754_zero false) (any env1 env1 blur) (reds [10; 20; 30]%N) (reds [20; 20; 20]%N)
  /\ belongs place (txt "x/a.png") 1 /\ album (place (txt "x/a.png")) = Some (reds [10; 20; 30]%N)
  /\ exists s, bench one (i_init one album) s /\ complete s.
Proof.
  destruct (measured_error (txt "x/a.png") (reds [10; 20; 30]%N) false) as (r & M & _); [vm_compute; reflexivity|].
  split; [|split; [|split; [|split]]].
  - intros q q' n [<-|[]] [<-|[]] (f & U & ->). vm_compute in U. injection U as <-. vm_compute. discriminate.
  - apply wrong_changed. vm_compute. reflexivity.
  - exists (txt "output/a.png"). split; reflexivity.
  - reflexivity.
  - eexists. split.
    + eapply (whole_save one 0) with (im := reds [10; 20; 30]%N) (y := reds [20; 20; 20]%N) (f := txt "output/a.png"); [reflexivity|reflexivity|reflexivity|vm_compute; reflexivity|reflexivity|exact M].
    + repeat constructor; eexists; (split; [reflexivity|discriminate]).
Qed.
Lemma input_overwritten : exists paths path im y s, bench paths (i_init paths album) s /\ complete s /\ In path paths
  /\ album (place path) = Some im /\ i_files s (place path) = Some y /\ y <> im.
Proof.
  destruct overwritten as (s & A & B & C & D). exists own, (txt "output/a.png"), (reds [0; 50]%N), (reds [25; 25]%N), s.
  split; [exact A|split; [exact B|split; [now left|split; [exact C|split; [exact D|discriminate]]]]].
Qed.
Lemma shared_lost : exists path path' im im' y y' n s, let paths := [path; path'] in
  apart place paths /\ bench paths (i_init paths album) s /\ complete s /\ album (place path) = Some im /\ album (place path') = Some im'
  /\ belongs place path n /\ belongs place path' n
  /\ changed Debug (B754_zero false) (blur_codec path) im y /\ changed Debug (B754_zero false) (blur_codec path') im' y'
  /\ i_files s n = Some y' /\ y <> y'.
Proof.
  destruct shared as (s & y & y' & n & A & B & C & D & E & F & G & H). exists (txt "x/a.png"), (txt "y/a.jpg"), (reds [10; 20; 30]%N), (reds [7; 9]%N), y, y', n, s.
  cbn zeta. split; [exact two_apart|split; [exact A|split; [exact B|split; [reflexivity|split; [reflexivity|]]]]]. repeat (split; [assumption|]). exact H.
Qed.
Lemma images_case : apart place one /\ changed Debug (B754_zero false) (any env1 env1 blur) (reds [10; 20; 30]%N) (reds [20; 20; 20]%N)
  /\ belongs place (txt "x/a.png") 1 /\ album (place (txt "x/a.png")) = Some (reds [10; 20; 30]%N)
  /\ (exists s, bench one (i_init one album) s /\ complete s) /\ Forall (fine (fun q => album (place q)) (fun _ => env1)) one.
Proof.
  destruct one_case as (A & B & C & D & E). split; [exact A|split; [exact B|split; [exact C|split; [exact D|split; [exact E|]]]]].
  constructor; [|constructor]. exists (reds [10; 20; 30]%N). split; [exact D|]. split; [exact (album_ok _ _ D)|]. split; [cbn; lia|]. split; [cbn; lia|].
  destruct C56_case as ([] & _). split; auto; [apply curve_visits|cbn; lia].
Qed.
