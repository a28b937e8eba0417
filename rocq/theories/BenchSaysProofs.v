(** * Proofs about the messages of the benchmark. *)
From Coq Require Import String Permutation Sorted Lia.
From Flocq Require Import BinarySingleNaN.
From Verif Require Import Base Prs Float Img HilbertC CodecSpec Select Bench BenchSpec BenchPar BenchTop Special Images ImagesSpec BenchDisk BenchDiskProofs Program ProgramSpec ProgramProofs BenchSays BenchSaysSpec.
Close Scope string_scope.
Open Scope list_scope.
Notation length := List.length.

Lemma raw_sized p im n : raw_size p im = Ok n <-> sized p im /\ n = (24 * pixels im mod 2 ^ 32)%N.
Proof.
  rewrite raw_size_spec. unfold sized. destruct (N.ltb_spec (24 * pixels im) (2 ^ 32)) as [L|L].
  - rewrite N.mod_small by exact L. split; [intros [= <-]; auto|intros (_ & ->); reflexivity].
  - destruct p; split; try discriminate.
    + intros (X & _). specialize (X eq_refl). lia.
    + intros [= <-]. split; [discriminate|reflexivity].
    + intros (_ & ->). reflexivity.
Qed.
Lemma raw_no_err p im : raw_size p im <> Err.
Proof. rewrite raw_size_spec. destruct (_ <? _)%N; [discriminate|]. destruct p; discriminate. Qed.
Lemma error_no_err p z x y : compute_error p z x y <> Err.
Proof. unfold compute_error, res_bind. destruct (ufit p (2 ^ 32) (im_w x * im_h x)) eqn:U; try discriminate. now apply ufit_no_err in U. Qed.
(** The images whose raw size is computed also have an error *)
Lemma error_defined p z x y : sized p x -> compute_error p z x y <> Panic.
Proof.
  intros S. unfold compute_error, res_bind, ufit. destruct (N.ltb_spec (im_w x * im_h x) (2 ^ 32)) as [L|L]; [discriminate|]. destruct p; [|discriminate].
  unfold sized, pixels in S. specialize (S eq_refl). exfalso. lia.
Qed.

(** What is known about a changed image *)
Lemma spoiled_inv p zero c path o f im : o = inl im -> spoiled p zero c path o f -> exists data y e, enc c im = Some (Ok data) /\ sized p im /\ dec c data = Some (Ok y)
  /\ compute_error p zero im y = Ok e /\ feq e (f64_of_N 0) = false /\ under_output path (txt "png") = Ok f.
Proof. intros -> (im' & y & [= <-] & S & (data & e & En & De & Er & Z) & U). exists data, y, e. auto 8. Qed.
Lemma spoiled_open p zero c path o f e : o = inr e -> ~ spoiled p zero c path o f.
Proof. intros -> (im' & y & D & _). discriminate D. Qed.
Lemma spoiled_intro p zero c path o im data y e f : o = inl im -> enc c im = Some (Ok data) -> sized p im -> dec c data = Some (Ok y) -> compute_error p zero im y = Ok e ->
  feq e (f64_of_N 0) = false -> under_output path (txt "png") = Ok f -> spoiled p zero c path o f.
Proof. intros -> En S De Er Z U. exists im, y. split; [reflexivity|]. split; [exact S|]. split; [|exact U]. exists data, e. auto. Qed.

Section One.
  Variables (p : profile) (zero : f64) (c : codec) (path : text) (o : opened) (saves : bool).
  Notation says := (measure_says p zero c path o saves).
  Notation one := (measure_one p zero c path (the_image o) saves).

  Lemma outcome_one ls r : says = Some (ls, r) -> one = Some r \/ (file_name path = None /\ r = Panic).
  Proof.
    unfold measure_says, measure_one, the_image. destruct o as [im|e]; [|intros [= <- <-]; now left].
    destruct (enc c im) as [[data| |]|]; try (intros [= <- <-]; now left).
    pose proof (raw_no_err p im) as NE. destruct (raw_size p im) as [raw| |]; [|now destruct NE|intros [= <- <-]; now left].
    destruct (dec c data) as [[y| |]|]; try (intros [= <- <-]; now left).
    pose proof (error_no_err p zero im y) as NE'. destruct (compute_error p zero im y) as [e| |]; [|now destruct NE'|intros [= <- <-]; now left].
    destruct (negb (feq e (f64_of_N 0))); [|intros [= <- <-]; now left]. unfold under_output. destruct (file_name path) as [n|]; [|intros [= <- <-]; now right].
    destruct (negb saves); [intros [= <- <-]; now left|]. destruct (lossless c); intros [= <- <-]; now left.
  Qed.
  Lemma outcome_none : says = None <-> one = None.
  Proof.
    unfold measure_says, measure_one, the_image. destruct o as [im|e]; [|split; discriminate].
    destruct (enc c im) as [[data| |]|]; try (split; discriminate); [|now split].
    pose proof (raw_no_err p im) as NE. destruct (raw_size p im) as [raw| |]; [|now destruct NE|split; discriminate].
    destruct (dec c data) as [[y| |]|]; try (split; discriminate); [|now split].
    pose proof (error_no_err p zero im y) as NE'. destruct (compute_error p zero im y) as [e| |]; [|now destruct NE'|split; discriminate].
    destruct (negb (feq e (f64_of_N 0))); [|split; discriminate]. unfold under_output. destruct (file_name path) as [n|].
    - destruct (negb saves); [split; discriminate|]. destruct (lossless c); split; discriminate.
    - split; [discriminate|]. destruct (negb saves); [discriminate|]. destruct (lossless c); discriminate.
  Qed.

  (** The cases, with all that is known *)
  Definition facts (ls : list line) (r : res record) : Prop :=
    (exists e, o = inr e /\ ls = [Processing path; Failure (NoOpen e)] /\ r = Err)
    \/ exists im, o = inl im /\
       ((enc c im = Some Err /\ ls = [Processing path; Failure NoEncode] /\ r = Err)
        \/ (enc c im = Some Panic /\ ls = [Processing path] /\ r = Panic)
        \/ exists data, enc c im = Some (Ok data) /\ let head := [Processing path; CompressedSize (N.of_nat (length data))] in
           ((~ sized p im /\ ls = head /\ r = Panic)
            \/ sized p im /\ let head := head ++ [RawSize (24 * pixels im mod 2 ^ 32)] in
               ((dec c data = Some Err /\ ls = head ++ [Failure (NoDecode path)] /\ r = Err)
                \/ (dec c data = Some Panic /\ ls = head /\ r = Panic)
                \/ exists y e, dec c data = Some (Ok y) /\ compute_error p zero im y = Ok e /\
                   ((feq e (f64_of_N 0) = true /\ ls = head /\ exists rc, r = Ok rc)
                    \/ feq e (f64_of_N 0) = false /\
                       ((under_output path (txt "png") = Panic /\ ls = head /\ r = Panic)
                        \/ exists file, under_output path (txt "png") = Ok file /\
                           ((saves = false /\ ls = head ++ [Failure NoSave] /\ r = Err)
                            \/ (saves = true /\ lossless c = true /\ ls = head ++ [SavedTo file; Failure Mismatch] /\ r = Err)
                            \/ (saves = true /\ lossless c = false /\ ls = head ++ [SavedTo file] /\ exists rc, r = Ok rc))))))).
  Lemma all_facts ls r : says = Some (ls, r) -> facts ls r.
  Proof.
    unfold measure_says, facts. destruct o as [im|e]; [|intros [= <- <-]; left; eauto]. intros H. right. exists im. split; [reflexivity|].
    destruct (enc c im) as [[data| |]|] eqn:En; [|injection H as <- <-; now left|injection H as <- <-; right; now left|discriminate H].
    right. right. exists data. split; [reflexivity|]. cbn zeta in *.
    destruct (raw_size p im) as [raw| |] eqn:R; [|now apply raw_no_err in R|].
    2: { injection H as <- <-. left. split; [|now split]. intros S. pose proof (proj2 (raw_sized p im _) (conj S eq_refl)). congruence. }
    right. apply raw_sized in R as [S ->]. split; [exact S|].
    destruct (dec c data) as [[y| |]|] eqn:De; [|injection H as <- <-; now left|injection H as <- <-; right; now left|discriminate H].
    right. right. destruct (compute_error p zero im y) as [e| |] eqn:Er; [|now apply error_no_err in Er|now apply error_defined in Er].
    exists y, e. split; [reflexivity|]. split; [exact Er|].
    destruct (feq e (f64_of_N 0)); cbn [negb] in H; [left; injection H as <- <-; eauto|]. right. split; [reflexivity|].
    unfold under_output in *. destruct (file_name path) as [n|]; [|left; injection H as <- <-; auto]. right. eexists. split; [reflexivity|].
    destruct saves; cbn [negb] in H; [|left; injection H as <- <-; auto]. right. destruct (lossless c); injection H as <- <-; eauto 6.
  Qed.

  Ltac use := repeat match goal with
    | H : _ /\ _ |- _ => destruct H
    | H : exists _, _ |- _ => destruct H
    | H : False |- _ => destruct H
    | H : _ \/ _ |- _ => destruct H
    | H : inl _ = inl _ |- _ => injection H as H; (match type of H with ?a = ?b => subst b || subst a end)
    | H : inr _ = inr _ |- _ => injection H as H; (match type of H with ?a = ?b => subst b || subst a end)
    | H : Processing _ = Processing _ |- _ => injection H as H; (match type of H with ?a = ?b => subst b || subst a end)
    | H : CompressedSize _ = CompressedSize _ |- _ => injection H as H; (match type of H with ?a = ?b => subst b || subst a end)
    | H : RawSize _ = RawSize _ |- _ => injection H as H; (match type of H with ?a = ?b => subst b || subst a end)
    | H : SavedTo _ = SavedTo _ |- _ => injection H as H; (match type of H with ?a = ?b => subst b || subst a end)
    | H : Failure _ = Failure _ |- _ => injection H as H; (match type of H with ?a = ?b => subst b || subst a end)
    | H : NoDecode _ = NoDecode _ |- _ => injection H as H; (match type of H with ?a = ?b => subst b || subst a end)
    | H : NoOpen _ = NoOpen _ |- _ => injection H as H; (match type of H with ?a = ?b => subst b || subst a end)
    | H : ?a = ?a |- _ => clear H
    end.
  Ltac cases H := unfold facts in H; destruct H as
    [(e & Ho & -> & ->)|(im & Ho & [(En & -> & ->)|[(En & -> & ->)|(data & En & [(NS & -> & ->)|(S & [(De & -> & ->)|[(De & -> & ->)|(y & e & De & Er &
      [(Z & -> & rc & ->)|(Z & [(U & -> & ->)|(file & U & [(Sv & -> & ->)|[(Sv & Ls & -> & ->)|(Sv & Ls & -> & rc & ->)]])])])]])])]])]; cbn [app] in *.

  Lemma one_order ls r : facts ls r -> StronglySorted earlier ls.
  Proof. intros H. cases H; repeat constructor; unfold earlier; cbn; lia. Qed.
  Lemma one_processing ls r q : facts ls r -> (In (Processing q) ls <-> q = path).
  Proof. intros H. cases H; cbn [In]; (split; [intros I; use; try discriminate; reflexivity|intros ->; now left]). Qed.
  Lemma one_compressed ls r n : facts ls r -> (In (CompressedSize n) ls <-> exists im data, encoded c o im data /\ n = N.of_nat (length data)).
  Proof.
    intros H. unfold encoded. cases H; cbn [In]; (split; [intros I; use; try discriminate; eauto 6|intros (im' & data' & (Ho' & En') & ->)]);
      rewrite Ho in Ho'; try discriminate Ho'; injection Ho' as <-; rewrite En in En'; try discriminate En'; injection En' as <-; auto.
  Qed.
  Lemma one_raw ls r n : facts ls r -> (In (RawSize n) ls <-> exists im data, encoded c o im data /\ sized p im /\ n = (24 * pixels im mod 2 ^ 32)%N).
  Proof.
    intros H. unfold encoded. cases H; cbn [In]; (split; [intros I; use; try discriminate; eauto 8|intros (im' & data' & (Ho' & En') & S' & ->)]);
      rewrite Ho in Ho'; try discriminate Ho'; injection Ho' as <-; rewrite En in En'; try discriminate En'; injection En' as <-; auto; contradiction.
  Qed.
  Ltac refute Ho := match goal with
    | S : spoiled _ _ _ _ _ _ |- _ => first [exact (False_ind _ (spoiled_open _ _ _ _ _ _ _ Ho S)) |
        let D := fresh in destruct (spoiled_inv _ _ _ _ _ _ _ Ho S) as (?data' & ?y' & ?e' & ?En' & ?S' & ?De' & ?Er' & ?Z' & ?U'); try contradiction; try congruence]
    end.
  Lemma one_saved ls r f : facts ls r -> (In (SavedTo f) ls <-> spoiled p zero c path o f /\ saves = true).
  Proof.
    intros H. cases H; cbn [In]; (split; [intros I; use; try discriminate; (split; [eauto using spoiled_intro|assumption])|intros (Sp & Sv'); refute Ho]).
    all: try (replace f with file by congruence); auto 8.
  Qed.
  Lemma one_failure ls r f : facts ls r -> (In (Failure f) ls <-> reason p zero c path o saves f).
  Proof.
    intros H. cases H; cbn [In]; (split; [intros I; use; try discriminate|]).
    all: try (cbn [reason]; unfold encoded; first [solve [eauto 8]|solve [split; [reflexivity|eauto 8]]|solve [eauto 8 using spoiled_intro]]).
    all: destruct f as [e'| |q| | |]; cbn [reason]; unfold encoded; intros I; use; try (refute Ho); try congruence; try contradiction.
    all: try (rewrite Ho in *; congruence).
    all: repeat match goal with Ho : o = inl ?a, Ho' : o = inl ?b |- _ => rewrite Ho in Ho'; injection Ho' as <- end; try congruence; try contradiction.
    all: try (match goal with H : o = inr ?a, H' : o = inr ?b |- _ => rewrite H in H'; injection H' as <- end); auto 8.
    all: match goal with H : _ = path |- _ => rewrite H; auto 8 end.
  Qed.
  Lemma one_err ls r : facts ls r -> (r = Err <-> exists f, In (Failure f) ls).
  Proof. intros H. cases H; cbn [In]; (split; [intros D; try discriminate D; eauto 8|intros (f & I); use; try discriminate; reflexivity]). Qed.
End One.

(** ** All messages for one image *)
Lemma one_lines p zero c path o saves ls r : measure_says p zero c path o saves = Some (ls, r) ->
  StronglySorted earlier ls
  /\ (forall q, In (Processing q) ls <-> q = path)
  /\ (forall n, In (CompressedSize n) ls <-> exists im data, encoded c o im data /\ n = N.of_nat (length data))
  /\ (forall n, In (RawSize n) ls <-> exists im data, encoded c o im data /\ sized p im /\ n = (24 * pixels im mod 2 ^ 32)%N)
  /\ (forall f, In (SavedTo f) ls <-> spoiled p zero c path o f /\ saves = true)
  /\ (forall f, In (Failure f) ls <-> reason p zero c path o saves f)
  /\ (r = Err <-> exists f, In (Failure f) ls).
Proof.
  intros H. apply all_facts in H. split; [eapply one_order; eauto|]. split; [intros; eapply one_processing; eauto|]. split; [intros; eapply one_compressed; eauto|].
  split; [intros; eapply one_raw; eauto|]. split; [intros; eapply one_saved; eauto|]. split; [intros; eapply one_failure; eauto|]. eapply one_err; eauto.
Qed.

(** ** Shuffles *)
Lemma shuffle_perm {A} (ls : list (list A)) log : shuffle ls log -> Permutation log (concat ls).
Proof.
  induction 1 as [ls F|i x l ls rest Hi _ IH].
  - replace (concat ls) with (@nil A); [constructor|]. induction F as [|l ls -> _ IH]; [reflexivity|exact IH].
  - transitivity (x :: concat (upd i l ls)); [now constructor|]. clear IH. revert i Hi. induction ls as [|l' ls IH]; intros i Hi; [now destruct i|].
    destruct i as [|i]; cbn in Hi |- *; [injection Hi as ->; reflexivity|]. rewrite Permutation_middle. apply Permutation_app_head, IH, Hi.
Qed.
Lemma sub_nil_l {A} : forall l : list A, subsequence [] l.
Proof. induction l; constructor; assumption. Qed.
Lemma shuffle_sub {A} (ls : list (list A)) log : shuffle ls log -> forall i l, nth_error ls i = Some l -> subsequence l log.
Proof.
  induction 1 as [ls F|i x l ls rest Hi _ IH]; intros j l' Hj.
  - apply nth_error_In in Hj. rewrite Forall_forall in F. rewrite (F _ Hj). constructor.
  - destruct (Nat.eq_dec i j) as [<-|D].
    + rewrite Hi in Hj. injection Hj as <-. constructor. apply (IH i). eapply nth_upd_same; eauto.
    + constructor. apply (IH j). now rewrite nth_upd_other.
Qed.
Lemma shuffle_concat {A} : forall (ls : list (list A)), shuffle ls (concat ls).
Proof.
  intros ls. cut (forall a b : list (list A), Forall (fun l => l = []) a -> shuffle (a ++ b) (concat b)); [intros G; exact (G [] ls (Forall_nil _))|]. clear ls.
  intros a b. revert a. induction b as [|l b IH]; intros a F; [constructor; now rewrite app_nil_r|].
  revert F. induction l as [|x l IHl]; intros F.
  - cbn [concat app]. replace (a ++ [] :: b) with ((a ++ [[]]) ++ b) by (rewrite <- app_assoc; reflexivity). apply IH, Forall_app. split; [exact F|]. now repeat constructor.
  - cbn [concat app]. apply shuffle_cons with (i := length a) (l := l); [rewrite nth_error_app2, Nat.sub_diag by lia; reflexivity|].
    replace (upd (length a) l (a ++ (x :: l) :: b)) with (a ++ l :: b); [exact (IHl F)|]. clear. induction a as [|h a IH]; cbn; [reflexivity|now rewrite IH].
Qed.
