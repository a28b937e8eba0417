(** * The experiment scripts: theorems. *)
From Coq Require Import String Permutation Sorted ZifyBool ZifyNat ZifyN.
From Verif Require Import Base Ser Prs PrsTop SelectSpec Img CodecSpec CsvSpec Special SpecialProofs ProgramProofs DumperSpec CsvProofs CsvTop Experiments ExperimentsSpec ExperimentsProofs.
Close Scope string_scope.
Open Scope list_scope.
Notation length := List.length.

(** ** Counting *)
Lemma occ_pos {A} (eqb : A -> A -> bool) (eqb_eq : forall a b, eqb a b = true <-> a = b) k l : (0 < occ eqb k l)%N <-> In k l.
Proof.
  unfold occ. split.
  - intros H. destruct (filter (fun x => eqb x k) l) as [|y ys] eqn:E; [cbn in H; lia|]. assert (Y : In y (filter (fun x => eqb x k) l)) by (rewrite E; now left).
    apply filter_In in Y as [Y Z]. now apply eqb_eq in Z as ->.
  - intros H. assert (Y : In k (filter (fun x => eqb x k) l)) by (apply filter_In; split; [exact H|now apply eqb_eq]).
    destruct (filter (fun x => eqb x k) l); [destruct Y|cbn; lia].
Qed.
Lemma sorted_tally {A} (eqb : A -> A -> bool) (eqb_eq : forall a b, eqb a b = true <-> a = b) l t : Permutation t (tally eqb l) ->
  counts_of (fun k => occ eqb k l) (sort_counts t) /\ sum (map snd (sort_counts t)) = N.of_nat (length l).
Proof.
  intros P. destruct (tally_ok eqb eqb_eq l) as [T1 T2].
  assert (Q : Permutation (sort_counts t) (tally eqb l)) by (rewrite sort_perm; exact P). split; [split; [|split]|].
  - apply Permutation_NoDup with (map fst (tally eqb l)); [|exact T1]. now apply Permutation_map, Permutation_sym.
  - intros k n. split.
    + intros H. apply (Permutation_in _ Q), T2 in H as [H ->]. split; [reflexivity|now apply occ_pos].
    + intros [-> H]. apply (Permutation_in _ (Permutation_sym Q)), T2. split; [|reflexivity]. now apply (occ_pos eqb eqb_eq).
  - apply sort_sorted.
  - rewrite <- (tally_sum eqb eqb_eq l). transitivity (sum (map snd (tally eqb l))).
    + assert (R : Permutation (map snd (sort_counts t)) (map snd (tally eqb l))) by now apply Permutation_map.
      clear -R. unfold sum. induction R; cbn; lia.
    + unfold sum. clear. induction (tally eqb l) as [|[k n] d IH]; [reflexivity|]. cbn [map fold_right snd]. now rewrite IH.
Qed.

(** ** Columns of a dump *)
Lemma int_of_digits t : digits t -> int_of t = Some (Z.of_N (number t)).
Proof.
  intros [N F]. unfold int_of. destruct t as [|c t]; [contradiction|]. replace (forallb _ (c :: t)) with true.
  - f_equal. f_equal. unfold number. generalize 0%N. generalize (c :: t). clear. induction l as [|c l IH]; intros a; [reflexivity|]. cbn [fold_left]. rewrite <- IH. f_equal. lia.
  - symmetry. apply forallb_forall. intros x Hx. rewrite Forall_forall in F. specialize (F x Hx). lia.
Qed.
Lemma column_of l i name ch : nth_error [txt "red"; txt "blue"; txt "green"] i = Some name ->
  (forall px r g b, to_rgb px = (r, g, b) -> nth_error [Z.of_N r; Z.of_N g; Z.of_N b] i = Some (ch px)) ->
  column (sheet l) name = Some (map ch l).
Proof.
  intros Hn Hc. destruct (sheet_read l) as (rows & E & F). unfold column. rewrite E.
  assert (I : index_of name [txt "red"; txt "blue"; txt "green"] = Some i).
  { destruct i as [|[|[|i]]]; cbn in Hn; try (injection Hn as <-; reflexivity). destruct i; discriminate. }
  rewrite I. clear E I. induction F as [|px fields l rows (r & g & b & -> & Dr & Dg & Db & N) F IH]; [reflexivity|].
  cbn [opt_map map]. rewrite IH. specialize (Hc px _ _ _ (eq_sym N)).
  destruct i as [|[|[|i]]]; cbn in Hc; cbn [nth_error]; try (injection Hc as <-; now rewrite int_of_digits).
  destruct i; discriminate.
Qed.
Lemma red_column l : column (sheet l) (txt "red") = Some (map red l).
Proof. apply column_of with 0%nat; [reflexivity|]. intros px r g b E. unfold red. now rewrite E. Qed.
Lemma green_column l : column (sheet l) (txt "green") = Some (map blue l).
Proof. apply column_of with 2%nat; [reflexivity|]. intros px r g b E. unfold blue. now rewrite E. Qed.
Lemma blue_column l : column (sheet l) (txt "blue") = Some (map green l).
Proof. apply column_of with 1%nat; [reflexivity|]. intros px r g b E. unfold green. now rewrite E. Qed.
Lemma channels_dump l : channels (sheet l) = Some [(txt "red", map red l); (txt "green", map blue l); (txt "blue", map green l)].
Proof. unfold channels. cbn [opt_map]. now rewrite red_column, green_column, blue_column. Qed.

(** ** Distributions *)
Lemma diff_steps (ch : rgba -> Z) l : concat (map (fun o : option Z => match o with Some d => [d] | None => [] end) (diff (map ch l))) = map (fun '(p, q) => ch q - ch p)%Z (combine l (tl l)).
Proof.
  destruct l as [|x l]; [reflexivity|]. cbn. revert x. induction l as [|y l IH]; intros x; [reflexivity|]. cbn. f_equal. apply IH.
Qed.
Lemma filter_map {A B} (f : A -> B) (g : B -> bool) l : filter g (map f l) = map f (filter (fun x => g (f x)) l).
Proof. induction l as [|x l IH]; [reflexivity|]. cbn. destruct (g (f x)); cbn; now rewrite IH. Qed.
Lemma jumps_occ ch l d : occ Z.eqb d (map (fun '(p, q) => ch q - ch p)%Z (combine l (tl l))) = jumps ch l d.
Proof. unfold occ, jumps. rewrite filter_map, map_length. f_equal. f_equal. apply filter_ext. now intros [p q]. Qed.
Lemma distribution_dump l name ch vc : column (sheet l) name = Some (map ch l) -> distribution (sheet l) name vc ->
  counts_of (jumps ch l) vc /\ sum (map snd vc) = N.of_nat (length l - 1).
Proof.
  intros C (col & E & t & P & ->). rewrite C in E. injection E as <-. rewrite diff_steps in P.
  destruct (sorted_tally Z.eqb Z.eqb_eq _ t P) as [(A & B & D) S]. split.
  - split; [exact A|]. split; [|exact D]. intros k n. rewrite <- jumps_occ. apply B.
  - rewrite S, map_length, combine_length. destruct l as [|x l]; [reflexivity|]. cbn [tl length]. f_equal. lia.
Qed.
Lemma distribution_small ch l vc : (forall px, In px l -> (0 <= ch px < 256)%Z) -> counts_of (jumps ch l) vc -> Forall (fun e => (-255 <= fst e <= 255)%Z) vc.
Proof.
  intros R (_ & B & _). apply Forall_forall. intros [d n] H. apply B in H as [-> H]. unfold jumps in H. cbn [fst].
  destruct (filter (fun '(p, q) => (ch q - ch p =? d)%Z) (combine l (tl l))) as [|[p q] r] eqn:E; [cbn in H; lia|].
  assert (I : In (p, q) (filter (fun '(p, q) => (ch q - ch p =? d)%Z) (combine l (tl l)))) by (rewrite E; now left).
  apply filter_In in I as [I J]. pose proof (R p (in_combine_l _ _ _ _ I)) as R1. pose proof (in_combine_r _ _ _ _ I) as I2.
  assert (R2 : (0 <= ch q < 256)%Z) by (apply R; destruct l; [destruct I2|now right]). lia.
Qed.

(** ** Dimensions *)
Lemma split_x a b a' b' : Forall (fun c => 48 <= c <= 57)%N a -> Forall (fun c => 48 <= c <= 57)%N a' -> a ++ txt "x" ++ b = a' ++ txt "x" ++ b' -> a = a' /\ b = b'.
Proof.
  intros Fa. revert a'. induction Fa as [|c a Hc Fa IH]; intros [|c' a'] Fa' E.
  - cbn in E. injection E as E. now split.
  - cbn in E. injection E as E _. inversion Fa'; subst. lia.
  - cbn in E. injection E as E _. lia.
  - cbn in E. injection E as -> E. inversion Fa' as [|? ? _ F']; subst. destruct (IH a' F' E) as [-> ->]. now split.
Qed.
Lemma dims_inj s s' : dims s = dims s' -> s = s'.
Proof.
  unfold dims. intros E. destruct (split_x _ _ _ _ (proj2 (decimal_digits (fst s))) (proj2 (decimal_digits (fst s'))) E) as [A B].
  apply (f_equal number) in A, B. rewrite !decimal_number in A, B. destruct s, s'. cbn in *. congruence.
Qed.
Lemma dims_named s : names_dims s (dims s).
Proof. exists (decimal (fst s)), (decimal (snd s)). repeat split; try apply decimal_digits; apply decimal_number. Qed.
Lemma images_occ s sizes : occ text_eqb (dims s) (map dims sizes) = images_with s sizes.
Proof.
  unfold occ, images_with. rewrite filter_map, map_length. f_equal. f_equal. apply filter_ext. intros s'.
  destruct (text_eqb (dims s') (dims s)) eqn:E.
  - apply text_eqb_eq, dims_inj in E as ->. now rewrite !N.eqb_refl.
  - destruct ((fst s' =? fst s) && (snd s' =? snd s))%N eqn:E'; [|reflexivity]. assert (s' = s) as -> by (destruct s, s'; cbn in E'; f_equal; lia).
    rewrite <- Bool.not_true_iff_false, text_eqb_eq in E. contradiction.
Qed.
Lemma images_pos s sizes : (0 < images_with s sizes)%N <-> In s sizes.
Proof.
  unfold images_with. split.
  - intros H. destruct (filter _ sizes) as [|y ys] eqn:E; [cbn in H; lia|].
    assert (Y : In y (filter (fun s' => (fst s' =? fst s) && (snd s' =? snd s))%N sizes)) by (rewrite E; now left).
    apply filter_In in Y as [Y Z]. replace s with y; [exact Y|]. destruct s, y. cbn in Z. f_equal; lia.
  - intros H. assert (Y : In s (filter (fun s' => (fst s' =? fst s) && (snd s' =? snd s))%N sizes)) by (apply filter_In; split; [exact H|now rewrite !N.eqb_refl]).
    destruct (filter _ sizes); [destruct Y|cbn; lia].
Qed.
Lemma first_one_some l i : first_one l = Some i -> Forall (fun n => n <> 1%N) (firstn i l) /\ nth_error l i = Some 1%N.
Proof.
  revert i. induction l as [|n l IH]; intros i H; [discriminate|]. cbn in H. destruct (n =? 1)%N eqn:E.
  - injection H as <-. cbn. split; [constructor|]. f_equal. lia.
  - destruct (first_one l) as [k|]; [|discriminate]. injection H as <-. destruct (IH k eq_refl) as [A B]. cbn. split; [|exact B]. constructor; [lia|exact A].
Qed.
Lemma first_one_none l : first_one l = None <-> ~ In 1%N l.
Proof.
  induction l as [|n l IH]; [split; [now intros _ []|reflexivity]|]. cbn. destruct (n =? 1)%N eqn:E.
  - split; [discriminate|]. intros H. exfalso. apply H. left. lia.
  - destruct (first_one l) as [k|].
    + split; [discriminate|]. intros H. exfalso. assert (X : Some k = None) by (apply IH; intros Y; apply H; now right). discriminate.
    + split; [|reflexivity]. intros _ [->|H]; [discriminate|]. now apply IH.
Qed.
Lemma sum_app a b : sum (a ++ b) = (sum a + sum b)%N.
Proof. unfold sum. induction a as [|x a IH]; [reflexivity|]. cbn [fold_right app]. lia. Qed.
Lemma sum_ones l : Forall (fun n => n = 1%N) l -> sum l = N.of_nat (length l).
Proof. unfold sum. induction 1 as [|n l -> _ IH]; [reflexivity|]. cbn [fold_right length]. lia. Qed.
Lemma sorted_tail {A} (l : list (A * N)) i : StronglySorted by_count l -> Forall (fun e => 0 < snd e)%N l -> nth_error (map snd l) i = Some 1%N ->
  Forall (fun e => snd e = 1%N) (skipn i l).
Proof.
  intros S. revert i. induction S as [|e l S IH F]; intros i P H; [now destruct i|]. inversion P as [|? ? P1 P2]; subst. destruct i as [|i].
  - cbn in *. injection H as H. constructor; [exact H|]. apply Forall_forall. intros e' He. rewrite Forall_forall in F, P2. specialize (F e' He). specialize (P2 e' He). unfold by_count in F. lia.
  - cbn. now apply IH.
Qed.
Lemma sorted_map {A B} (f : A -> B) (R : A -> A -> Prop) (R' : B -> B -> Prop) l : (forall a b, R a b -> R' (f a) (f b)) -> StronglySorted R l -> StronglySorted R' (map f l).
Proof.
  intros H. induction 1 as [|a l S IH F]; [constructor|]. cbn. constructor; [exact IH|]. apply Forall_map. eapply Forall_impl; [|exact F]. intros b. apply H.
Qed.
Lemma sorted_app_l {A} (R : A -> A -> Prop) a b : StronglySorted R (a ++ b) -> StronglySorted R a.
Proof.
  induction a as [|x a IH]; intros H; [constructor|]. cbn in H. inversion H as [|? ? S F]; subst. constructor; [now apply IH|]. now apply Forall_app in F as [F _].
Qed.

Lemma nodup_parts {A} (a b : list A) : NoDup (a ++ b) -> NoDup a /\ NoDup b.
Proof.
  induction a as [|x a IH]; intros H; [split; [constructor|exact H]|]. cbn in H. inversion H as [|? ? X Y]; subst. destruct (IH Y) as [P Q]. split; [|exact Q].
  constructor; [|exact P]. intros I. apply X. apply in_or_app. now left.
Qed.

(** The text of each key, and the dimensions it stands for *)
Lemma dims_keys sizes : exists ds, map fst (sort_counts (dimensions sizes)) = map dims ds /\ NoDup ds
  /\ sort_counts (dimensions sizes) = map (fun s => (dims s, images_with s sizes)) ds /\ (forall s, In s ds <-> In s sizes)
  /\ StronglySorted (fun a b => images_with b sizes <= images_with a sizes)%N ds /\ sum (map (fun s => images_with s sizes) ds) = N.of_nat (length sizes).
Proof.
  unfold dimensions. destruct (sorted_tally text_eqb text_eqb_eq (map dims sizes) _ (Permutation_refl _)) as [(A & B & C) S]. rewrite map_length in S.
  set (l := sort_counts (tally text_eqb (map dims sizes))) in *.
  assert (K : forall e, In e l -> exists s, In s sizes /\ e = (dims s, images_with s sizes)).
  { intros [k n] H. apply B in H as [-> H]. apply (occ_pos text_eqb text_eqb_eq) in H. apply in_map_iff in H as (s & <- & H). exists s. now rewrite images_occ. }
  assert (G : exists ds, l = map (fun s => (dims s, images_with s sizes)) ds).
  { clear -K. induction l as [|e l IH]; [now exists []|]. destruct IH as [ds ->]; [intros e' H; apply K; now right|].
    destruct (K e ltac:(now left)) as (s & _ & ->). now exists (s :: ds). }
  destruct G as [ds E]. exists ds. rewrite E, map_map in A. cbn in A.
  assert (ND : NoDup ds) by now apply NoDup_map_inv in A.
  repeat split.
  - rewrite E, map_map. reflexivity.
  - exact ND.
  - exact E.
  - intros H. assert (I : In (dims s, images_with s sizes) l) by (rewrite E; apply in_map_iff; now exists s). destruct (K _ I) as (s' & Hs & X).
    injection X as X _. apply dims_inj in X as ->. exact Hs.
  - intros H. assert (I : In (dims s, images_with s sizes) l).
    { apply B. split; [symmetry; apply images_occ|]. now apply images_pos. }
    rewrite E in I. apply in_map_iff in I as (s' & X & Hs). injection X as X _. now apply dims_inj in X as ->.
  - rewrite E in C. clear -C. induction ds as [|s ds IH]; [constructor|]. cbn in C. inversion C as [|? ? C1 C2]; subst. constructor; [now apply IH|].
    rewrite Forall_map in C2. exact C2.
  - rewrite <- S, E, map_map. reflexivity.
Qed.
Lemma pair_dec (a b : N * N) : {a = b} + {a <> b}.
Proof. decide equality; apply N.eq_dec. Qed.
Lemma bars_none sizes : dim_bars sizes = None <-> forall s, images_with s sizes <> 1%N.
Proof.
  unfold dim_bars. destruct (dims_keys sizes) as (ds & _ & ND & E & M & _ & _). rewrite E, map_map. cbn [snd].
  transitivity (first_one (map (fun s => images_with s sizes) ds) = None); [destruct (first_one _); split; try discriminate; reflexivity|].
  rewrite first_one_none, in_map_iff. split.
  - intros H s X. apply H. exists s. split; [exact X|]. apply M, images_pos. lia.
  - intros H (s & X & _). now apply (H s).
Qed.
Lemma bars_some sizes bars : dim_bars sizes = Some bars ->
  exists ds front n, bars = front ++ [(txt "singles", n)]
  /\ Forall2 (fun s b => names_dims s (fst b) /\ snd b = images_with s sizes) ds front
  /\ NoDup ds /\ (forall s, In s ds <-> (2 <= images_with s sizes)%N) /\ StronglySorted (fun a b => images_with b sizes <= images_with a sizes)%N ds
  /\ n = N.of_nat (length (filter (fun s => images_with s sizes =? 1)%N sizes)) /\ (0 < n)%N /\ sum (map snd bars) = N.of_nat (length sizes).
Proof.
  unfold dim_bars. destruct (dims_keys sizes) as (ds & _ & ND & E & M & St & Sm). rewrite E. intros H.
  set (l := map (fun s => (dims s, images_with s sizes)) ds) in *.
  destruct (first_one (map snd l)) as [i|] eqn:F; [|discriminate]. injection H as <-.
  destruct (first_one_some _ _ F) as [F1 F2]. unfold l in F1, F2. rewrite map_map in F1, F2. cbn [snd] in F1, F2. rewrite firstn_map in F1.
  assert (L : (i < length ds)%nat) by (apply nth_error_Some in F2 as X || (assert (X := proj1 (nth_error_Some (map (fun s => images_with s sizes) ds) i) ltac:(congruence))); now rewrite map_length in X).
  assert (Pos : forall s, In s ds -> (0 < images_with s sizes)%N) by (intros s Hs; now apply images_pos, M).
  assert (Back : Forall (fun s => images_with s sizes = 1%N) (skipn i ds)).
  { assert (X : Forall (fun e : (N * N) * N => snd e = 1%N) (skipn i (map (fun s => (s, images_with s sizes)) ds))).
    { apply sorted_tail.
      - now apply sorted_map with (R := fun a b => (images_with b sizes <= images_with a sizes)%N).
      - apply Forall_map, Forall_forall. exact Pos.
      - rewrite map_map. exact F2. }
    rewrite skipn_map, Forall_map in X. exact X. }
  rewrite Forall_map in F1.
  exists (firstn i ds), (map (fun s => (dims s, images_with s sizes)) (firstn i ds)), (N.of_nat (length l - i)).
  assert (SP : ds = firstn i ds ++ skipn i ds) by (symmetry; apply firstn_skipn).
  assert (Ll : length l = length ds) by apply map_length.
  split; [unfold l; now rewrite firstn_map|]. split; [|split; [|split; [|split; [|split; [|split]]]]].
  - clear. induction (firstn i ds) as [|s d IH]; cbn; constructor; [split; [apply dims_named|reflexivity]|exact IH].
  - rewrite SP in ND. exact (proj1 (nodup_parts _ _ ND)).
  - intros s. split.
    + intros H. assert (I : In s ds) by (rewrite SP; apply in_or_app; now left). specialize (Pos s I). rewrite Forall_forall in F1. specialize (F1 s H). cbn in F1. lia.
    + intros H. assert (I : In s ds) by (apply M, images_pos; lia). rewrite SP in I. apply in_app_or in I as [I|I]; [exact I|].
      rewrite Forall_forall in Back. specialize (Back s I). cbn in Back. lia.
  - rewrite SP in St. now apply sorted_app_l in St.
  - rewrite Ll, <- skipn_length. f_equal. apply Permutation_length.
    assert (O : forall s, images_with s sizes = 1%N -> count_occ pair_dec sizes s = 1%nat).
    { intros s H. unfold images_with in H. assert (X : forall l', length (filter (fun s' => (fst s' =? fst s) && (snd s' =? snd s))%N l') = count_occ pair_dec l' s).
      { induction l' as [|x l' IH]; [reflexivity|]. cbn. destruct ((fst x =? fst s) && (snd x =? snd s))%N eqn:Ex.
        - assert (x = s) as -> by (destruct x, s; cbn in Ex; f_equal; lia). cbn. rewrite IH. destruct (pair_dec s s); [reflexivity|contradiction].
        - rewrite IH. destruct (pair_dec x s) as [->|]; [|reflexivity]. rewrite !N.eqb_refl in Ex. discriminate. }
      rewrite <- X. lia. }
    apply NoDup_Permutation.
    + rewrite SP in ND. exact (proj2 (nodup_parts _ _ ND)).
    + apply (NoDup_count_occ pair_dec). intros s.
      assert (X : forall l', (count_occ pair_dec (filter (fun s => images_with s sizes =? 1)%N l') s <= (if (images_with s sizes =? 1)%N then count_occ pair_dec l' s else 0))%nat).
      { induction l' as [|x l' IH]; [cbn; now destruct (images_with s sizes =? 1)%N|]. cbn [filter]. destruct (images_with x sizes =? 1)%N eqn:Ex; cbn [count_occ].
        - destruct (pair_dec x s) as [->|]; [rewrite Ex in IH |- *; lia|]. exact IH.
        - destruct (pair_dec x s) as [->|]; [rewrite Ex in IH |- *; lia|]. exact IH. }
      specialize (X sizes). destruct (images_with s sizes =? 1)%N eqn:Es; [|lia]. rewrite O in X by lia. exact X.
    + intros s. rewrite filter_In. split.
      * intros H. rewrite Forall_forall in Back. specialize (Back s H). cbn in Back. split; [|lia]. apply M. rewrite SP. apply in_or_app. now right.
      * intros [H H']. apply M in H. rewrite SP in H. apply in_app_or in H as [H|H]; [|exact H]. rewrite Forall_forall in F1. specialize (F1 s H). cbn in F1. lia.
  - lia.
  - rewrite map_app, sum_app. cbn [map snd]. unfold l at 1. rewrite firstn_map, map_map. cbn [snd]. rewrite <- Sm.
    assert (Sp : sum (map (fun s => images_with s sizes) ds) = (sum (map (fun s => images_with s sizes) (firstn i ds)) + sum (map (fun s => images_with s sizes) (skipn i ds)))%N)
      by (now rewrite <- sum_app, <- map_app, firstn_skipn).
    rewrite Sp. f_equal.
    rewrite (sum_ones (map _ (skipn i ds))); [|apply Forall_map; exact Back]. rewrite map_length, skipn_length, Ll. cbn. lia.
Qed.

(** ** Colours *)
Lemma rgb_eqb_eq a b : rgb_eqb a b = true <-> a = b.
Proof.
  destruct a as [[r g] b0], b as [[r' g'] b']. cbn. split; [intros H; repeat f_equal; lia|]. intros E. injection E as -> -> ->. now rewrite !N.eqb_refl.
Qed.
Lemma tally_different {A} (eqb : A -> A -> bool) (eqb_eq : forall a b, eqb a b = true <-> a = b) l : different l (N.of_nat (length (tally eqb l))).
Proof.
  destruct (tally_ok eqb eqb_eq l) as [T1 T2]. exists (map fst (tally eqb l)). split; [exact T1|]. split; [|now rewrite map_length]. intros x. rewrite in_map_iff. split.
  - intros ([k n] & <- & H). now apply T2 in H.
  - intros H. exists (x, occ eqb x l). split; [reflexivity|]. now apply T2.
Qed.
Lemma ncolors_ok im : img_ok im -> exists n, ncolors im = Some n /\ different (map to_rgb (im_px im)) n.
Proof.
  intros Him. exists (N.of_nat (length (tally rgb_eqb (map to_rgb (im_px im))))). pose proof (tally_different rgb_eqb rgb_eqb_eq (map to_rgb (im_px im))) as D.
  split; [|exact D]. unfold ncolors. replace (_ <? _)%N with false; [reflexivity|]. symmetry. destruct D as (d & ND & I & E). rewrite E.
  assert (L : (length d <= length (map to_rgb (im_px im)))%nat) by (apply NoDup_incl_length; [exact ND|]; intros x; apply I).
  rewrite map_length in L. destruct Him as (_ & _ & _ & Hl & _). lia.
Qed.
Lemma flat_length l : length (concat (map (fun px : rgba => let '(r, g, b) := to_rgb px in [r; g; b]) l)) = (3 * length l)%nat.
Proof. induction l as [|[[[r g] b] a] l IH]; [reflexivity|]. cbn [map concat]. rewrite app_length, IH. cbn. lia. Qed.
Lemma colour_bars_ok im : different (values im) (N.of_nat (length (colour_bars im)))
  /\ (exists vc, counts_of (fun v => occ N.eqb v (values im)) vc /\ colour_bars im = rev (map snd vc)) /\ sum (colour_bars im) = (3 * N.of_nat (length (im_px im)))%N.
Proof.
  unfold colour_bars. change (flat im) with (values im).
  destruct (sorted_tally N.eqb N.eqb_eq (values im) _ (Permutation_refl _)) as [C S]. split; [|split].
  - rewrite rev_length, map_length, (Permutation_length (sort_perm _)). apply tally_different, N.eqb_eq.
  - eexists. split; [exact C|reflexivity].
  - assert (R : forall l, sum (rev l) = sum l). { induction l as [|x l IH]; [reflexivity|]. cbn [rev]. rewrite sum_app, IH. unfold sum. cbn [fold_right]. lia. }
    rewrite R, S. unfold values. rewrite flat_length. lia.
Qed.

(** ** Statements *)
Lemma distributions l vr vg vb : distribution (sheet l) (txt "red") vr -> distribution (sheet l) (txt "green") vg -> distribution (sheet l) (txt "blue") vb ->
  (counts_of (jumps red l) vr /\ counts_of (jumps blue l) vg /\ counts_of (jumps green l) vb)
  /\ sum (map snd vr) = N.of_nat (length l - 1) /\ sum (map snd vg) = N.of_nat (length l - 1) /\ sum (map snd vb) = N.of_nat (length l - 1)
  /\ (Forall rgba_ok l -> Forall (fun e => (-255 <= fst e <= 255)%Z) (vr ++ vg ++ vb)).
Proof.
  intros Hr Hg Hb. destruct (distribution_dump l _ red vr (red_column l) Hr) as [A1 A2]. destruct (distribution_dump l _ blue vg (green_column l) Hg) as [B1 B2].
  destruct (distribution_dump l _ green vb (blue_column l) Hb) as [C1 C2]. split; [split; [exact A1|split; [exact B1|exact C1]]|]. split; [exact A2|]. split; [exact B2|]. split; [exact C2|].
  intros F. assert (G : forall px, In px l -> (0 <= red px < 256 /\ 0 <= green px < 256 /\ 0 <= blue px < 256)%Z).
  { intros [[[r g] b] a] Hin. rewrite Forall_forall in F. specialize (F _ Hin). unfold rgba_ok, rgb_ok, u8_ok in F. cbn in *. unfold red, green, blue. cbn. lia. }
  apply Forall_app. split; [|apply Forall_app; split].
  - apply (distribution_small red l); [|exact A1]. intros px Hin. exact (proj1 (G px Hin)).
  - apply (distribution_small blue l); [|exact B1]. intros px Hin. exact (proj2 (proj2 (G px Hin))).
  - apply (distribution_small green l); [|exact C1]. intros px Hin. exact (proj1 (proj2 (G px Hin))).
Qed.
Lemma distribution_exists l name ch : column (sheet l) name = Some (map ch l) -> exists vc, distribution (sheet l) name vc.
Proof. intros C. eexists. exists (map ch l). split; [exact C|]. eexists. split; [apply Permutation_refl|reflexivity]. Qed.
Lemma distributions_exist l colour : In colour [txt "red"; txt "green"; txt "blue"] -> exists vc, distribution (sheet l) colour vc.
Proof.
  intros [<-|[<-|[<-|[]]]]; eapply distribution_exists; [apply red_column|apply green_column|apply blue_column].
Qed.
Lemma green_is_blue : exists l curve, In (txt "green", curve) (match channels (sheet l) with Some c => c | None => [] end) /\ curve <> map green l.
Proof.
  exists [((1, 2, 3), 255)%N], [3%Z]. rewrite channels_dump. split; [right; now left|]. discriminate.
Qed.
Lemma bars_not_colours : exists im n, img_ok im /\ ncolors im = Some n /\ N.of_nat (length (colour_bars im)) <> n.
Proof.
  exists (mkImg 1 1 [((1, 2, 3), 255)%N]), 1%N. split; [|split; [reflexivity|discriminate]].
  unfold img_ok, u32_ok. cbn. repeat split; try lia. constructor; [|constructor]. unfold rgba_ok, rgb_ok, u8_ok. cbn. lia.
Qed.
