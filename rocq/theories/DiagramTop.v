(** * The diagrams: main lemmas (C75), and what the benchmark records say (C77). *)
From Coq Require Import String ZArith NArith Reals Lra Permutation Sorted Lia ZifyNat ZifyN.
From Flocq Require Import BinarySingleNaN.
From Verif Require Import Base Prs Float FloatProofs Img HilbertC Huf HufSpec CodecSpec CodecBytes Select Bench BenchSpec BenchTop ForeignTop EncodeBytes Special Program ProgramSpec ProgramProofs Diagrams DiagramSpec DiagramProofs DiagramFloat.
Close Scope string_scope.
Open Scope list_scope.
Notation length := List.length.

(** ** Decoding what was encoded *)
Lemma decoded_ok E E' c im data y : img_ok im -> env_ok E im -> (if any_is_lossless c then True else pixels im < 2 ^ 32 /\ ord_ok (e_ord2 E))%N ->
  any_encode E c im = Some (Ok data) -> any_decode E' c data = Some (Ok y) -> img_ok y /\ is_opaque y.
Proof. intros Hi He Hl H1 H2. pose proof (encoded_bytes E c im data Hi He Hl H1) as U. destruct (decoded_is_image E' c data y U H2) as (A & B & _). now split. Qed.
(** The error is zero for the same colours and only then. *)
Lemma described_error p sg opens E E' c r : usable opens E c (rec_name r) -> describes p (B754_zero sg) opens E E' c r ->
  usual_error (rec_error r) /\ (feq (rec_error r) (f64_of_N 0) = true <-> came_back opens E E' c r).
Proof.
  destruct r as [[[name size] ratio] e]. cbn [rec_name rec_error]. intros (im & Ho & Hi & Hn & He & Hl) (im' & data & y & Ho' & H1 & H2 & _ & _ & _ & Ee).
  rewrite Ho in Ho'. injection Ho' as <-.
  assert (Hy : img_ok y /\ is_opaque y).
  { eapply decoded_ok; [exact Hi|exact He| |exact H1|exact H2]. destruct (any_is_lossless c); [exact I|]. split; [apply Hn|now apply Hl]. }
  destruct Hy as [(_ & _ & _ & _ & Hy) _]. destruct (error_spec p sg im y Hi Hy Hn) as (e' & E1 & F & _ & Z).
  rewrite Ee in E1. apply ok_inj in E1. subst e'. split.
  - destruct (error_usual p sg im y e Hi Hy (proj2 Hn) Ee) as [U|U]; [exact U|]. destruct e; try discriminate F; discriminate U.
  - rewrite Z. split.
    + intros H. exists im, data, y. cbn [rec_name]. auto.
    + intros (im2 & data2 & y2 & A & B & C & D). cbn [rec_name] in *. rewrite Ho in A. injection A as <-. rewrite H1 in B. apply some_inj, ok_inj in B. subst data2.
      rewrite H2 in C. apply some_inj, ok_inj in C. subst y2. exact D.
Qed.
Lemma records_table l : records (table l) = l.
Proof. destruct l as [|r l]; [reflexivity|]. cbn. f_equal. induction l as [|x l IH]; [reflexivity|]. cbn. now f_equal. Qed.
Theorem kept_lossless reread mean p sg opens E E' c l : reread_ok reread -> mean_ok mean -> l <> [] -> (N.of_nat (length l) < 2 ^ 33)%N ->
  Forall (fun r => usable opens E c (rec_name r) /\ describes p (B754_zero sg) opens E E' c r) l ->
  kept reread mean (BenchTable (table l)) = true <-> Forall (came_back opens E E' c) l.
Proof.
  intros HR HM Hne HL HF. unfold kept. rewrite records_table, <- (map_map rec_error reread).
  rewrite (mean_zero reread mean HR HM); [| |rewrite map_length; exact HL].
  2: { apply Forall_map. eapply Forall_impl; [|exact HF]. intros r [A B]. left. now apply (described_error p sg opens E E' c r A B). }
  assert (G : Forall (fun r => is_finite (rec_error r) = true /\ (B2R (rec_error r) = 0%R <-> came_back opens E E' c r)) l).
  { eapply Forall_impl; [|exact HF]. intros r [A B]. destruct (described_error p sg opens E E' c r A B) as [U Z]. split; [apply U|]. rewrite <- Z. symmetry. apply feq_zero, U. }
  clear HF HL. split.
  - intros [_ H]. apply (proj1 (Forall_map _ _ _)) in H. induction G as [|r l [F Z] G IH]; [constructor|]. inversion H as [|? ? H1 H2]; subst.
    constructor; [apply Z; destruct H1 as [H1|H1]; [rewrite (finite_not_nan _ F) in H1; discriminate|exact H1]|].
    destruct l as [|r2 l]; [constructor|]. apply IH; [discriminate|exact H2].
  - intros H. split.
    + destruct G as [|r l [F _] _]; [contradiction|]. constructor. now apply finite_not_nan.
    + apply Forall_map. clear Hne. induction G as [|r l [F Z] G IH]; [constructor|]. inversion H; subst. constructor; [right; now apply Z|now apply IH].
Qed.
Theorem boxplot_sorted reread mean files boxes : boxplot reread mean files = Ok boxes ->
  Forall (numbered mean) boxes -> Sorted (ordered mean) boxes.
Proof.
  unfold boxplot. destruct (gather reread mean files) as [l| |]; try discriminate. cbn [res_bind]. destruct l as [|b l]; [discriminate|]. intros H HN.
  apply ok_inj in H. subst boxes. apply sort_sorted. eapply Permutation_Forall; [apply sort_perm|exact HN].
Qed.
(** A run in which every image fails leaves a table that both scripts choke on. *)
Theorem no_success_aborts : forall p d f show zero opens saves E E' scan t c paths out files reread mean others,
  any_codec_from_str p d f t = POk c -> Forall (fun path => opens path = None) paths ->
  program p d f show zero opens saves E E' scan ((txt "--codec=" ++ t) :: paths) out files ->
  out = Ok tt /\ exists rows, files = [Table (table_file show c) rows]
  /\ scatter reread mean ((codec_name show c ++ txt ".csv", BenchTable rows) :: others) = Panic
  /\ boxplot reread mean ((codec_name show c ++ txt ".csv", BenchTable rows) :: others) = Panic.
Proof.
  intros p d f show zero opens saves E E' scan t c paths out files reread mean others Hc Hp P.
  assert (J : forall path, In path paths -> opens path = None) by (intros path H; exact (proj1 (Forall_forall _ _) Hp path H)).
  destruct (any_run _ _ _ _ _ _ _ _ _ _ t c paths out files Hc P) as (rows & l & m & -> & R & Pm & D & [(-> & -> & _)|(_ & path & Hin & X)]).
  - split; [reflexivity|]. exists (table l). split; [reflexivity|]. assert (El : l = []).
    { destruct l as [|[[[n sz] ra] e] l]; [reflexivity|exfalso]. inversion D as [|? ? Dr _]; subst. destruct Dr as [(im & _ & _ & Ho & _) _].
      rewrite (J n) in Ho; [discriminate|]. eapply Permutation_in; [exact Pm|]. now left. }
    subst l. split; [apply scatter_spec|apply boxplot_spec].
    + intros F. inversion F as [|? ? A _]; subst. now apply A.
    + intros [F _]. inversion F as [|? ? A _]; subst. now apply A.
  - exfalso. unfold job, measure_one in X. rewrite (J path Hin) in X. discriminate X.
Qed.

(** ** Oracles for the examples *)
(** A mean that adds from the right *)
Definition some_mean (l : list f64) : f64 := let numbers := filter (fun x => negb (is_nan x)) l in
  match numbers with [] => B754_nan | _ => fdiv (fold_right fadd (f64_of_N 0) numbers) (f64_of_N (N.of_nat (List.length numbers))) end.
Lemma sample_oracles : reread_ok (fun x => x) /\ mean_ok some_mean /\ py_div_ok (fun a b => if (b =? 0)%N then None else Some (fdiv (f64_of_N a) (f64_of_N b))).
Proof.
  split; [|split].
  - intros x. split; [auto|]. intros F P. split; [exact F|]. lra.
  - intros l. unfold some_mean. destruct (filter _ l) as [|x n] eqn:E; [reflexivity|]. rewrite <- E. clear E. generalize (filter (fun x => negb (is_nan x)) l) as ns. clear. intros ns.
    exists (fold_right fadd (f64_of_N 0) ns). split; [|reflexivity]. induction ns as [|x ns IH]; [apply sums_nil|]. cbn [fold_right].
    apply (sums_add _ [x] ns); [apply Permutation_refl|apply sums_one|exact IH].
  - intros a b. split; [intros ->; reflexivity|]. intros Hb Ha. destruct (N.eqb_spec b 0) as [->|_]; [lia|]. eexists. split; [reflexivity|]. apply quotient_exact; assumption.
Qed.
