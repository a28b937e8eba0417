(** * What zip-back prints: final forms *)
From Coq Require Import String Sorted.
From Verif Require Import Base Ser SerSpec SerProofs Bit BitSpec Utils HufSpec Dict DictSpec DictProofs Prs Special Back BackSpec BackProofs BackRing BackEnc BackDec Img CodecSpec CodecBytes CodecZip Says BackSays BackSaysSpec BackSaysProofs.
From Coq Require Import ZifyBool ZifyNat ZifyN.
Close Scope string_scope.
Open Scope list_scope.

Lemma back_says_same T (next : nextf T N) pr caps fuel s w :
  snd (zip_back_says next pr caps fuel s w) = zip_back_encode next pr caps fuel s w.
Proof. apply erase_encode. Qed.

Lemma back_says T (next : nextf T N) s l pr caps fuel : delivers next s l -> caps_ok caps -> (length l < fuel)%nat ->
  exists o, told MAX_RING_BUFFER_SIZE [] [] l o /\ forall w, fst (zip_back_says next pr caps fuel s w) = heard (room w) o.
Proof.
  intros Hd Hc Hf. unfold zip_back_says.
  destruct (@encode_says_spec _ next MAX_RING_BUFFER_SIZE max_pos pr caps Hc max_16 fuel fuel (benc_new MAX_RING_BUFFER_SIZE s) [] l)
    as (syms & o & _ & Ht & _ & Hw); auto.
  - split; cbn; [apply hist_new|]. split; [reflexivity|]. split; [cbn; lia|]. exists l. auto.
  - exists o. auto.
Qed.

Lemma filter_quiet o more : Forall (fun m => is_announcement m = false) o -> filter is_announcement (o ++ more) = filter is_announcement more.
Proof. induction 1 as [|m o Hm _ IH]; [reflexivity|]. cbn. now rewrite Hm. Qed.
Lemma found_quiet k n len o : found_marks k n len o -> Forall (fun m => is_announcement m = false) o.
Proof.
  intros (again & last & -> & _ & _ & HL). constructor; [reflexivity|]. apply Forall_app. split.
  - clear. induction again; cbn; repeat constructor; assumption.
  - destruct (len =? n)%N; [destruct HL as [c ->]|subst]; repeat constructor.
Qed.
Lemma missed_quiet rest : Forall (fun m => is_announcement m = false) (missed_marks rest).
Proof. unfold missed_marks. destruct (6 <=? length rest)%nat; repeat constructor. Qed.
Lemma literal_filter lits more : filter is_announcement (literal_marks lits ++ more) = map announcement (literal lits) ++ filter is_announcement more.
Proof. destruct lits; reflexivity. Qed.

Lemma told_parses R h lits rest o : told R h lits rest o ->
  exists syms, parses R h lits rest syms /\ filter is_announcement o = map announcement syms.
Proof.
  induction 1 as [h lits rest len back o more Hb Hf _ (syms & Hp & He)|h lits rest more Hn Hg _ (syms & Hp & He)|h lits rest Hn Hg].
  - exists (literal lits ++ LookBack len back :: syms). split; [now apply parses_repeat|].
    rewrite (filter_quiet _ _ (found_quiet _ _ _ _ Hf)), literal_filter. cbn [filter is_announcement]. rewrite map_app. cbn [map announcement]. now rewrite He.
  - exists syms. split; [now apply parses_more|]. now rewrite (filter_quiet _ _ (missed_quiet rest)).
  - exists (literal (lits ++ rest)). split; [now apply parses_last|].
    rewrite (filter_quiet _ _ (missed_quiet rest)), <- (app_nil_r (literal_marks _)), literal_filter. apply app_nil_r.
Qed.

(** ** Sums *)
Definition total (o : list mark) : N := fold_right N.add 0%N (flat_map announced o).
Lemma total_app a b : total (a ++ b) = (total a + total b)%N.
Proof.
  unfold total. rewrite flat_map_app. induction (flat_map announced a) as [|x l IH]; cbn; [reflexivity|]. rewrite IH. lia.
Qed.
Lemma total_quiet o : Forall (fun m => is_announcement m = false) o -> total o = 0%N.
Proof. induction 1 as [|m o Hm _ IH]; [reflexivity|]. destruct m; try discriminate Hm; exact IH. Qed.
Lemma total_literal lits : total (literal_marks lits) = N.of_nat (length lits).
Proof. destruct lits as [|x l]; [reflexivity|]. unfold total. cbn [literal_marks flat_map announced app fold_right]. lia. Qed.
Lemma told_total R h lits rest o : told R h lits rest o -> total o = N.of_nat (length lits + length rest).
Proof.
  induction 1 as [h lits rest len back o more Hb Hf _ IH|h lits rest more Hn Hg _ IH|h lits rest Hn Hg].
  - rewrite total_app, (total_quiet o) by (eapply found_quiet; eassumption). rewrite total_app, total_literal.
    change (Rep len :: more) with ([Rep len] ++ more). rewrite total_app, IH, skipn_length. change (total [Rep len]) with (len + 0)%N.
    pose proof (best_len Hb). cbn [length]. lia.
  - rewrite total_app, (total_quiet _ (missed_quiet rest)), IH, !app_length, firstn_length, skipn_length. lia.
  - rewrite total_app, (total_quiet _ (missed_quiet rest)), total_literal, app_length. lia.
Qed.

(** ** Into a vector: all of it, or up to the symbol that is too long *)
Lemma heard_vec o :
  (Forall (fun n => n <= 32767)%N (flat_map announced o) /\ heard None o = o)
  \/ exists o1 m n o2, o = o1 ++ m :: o2 /\ announced m = [n] /\ (32767 < n)%N /\ Forall (fun n => n <= 32767)%N (flat_map announced o1)
     /\ heard None o = o1 ++ [m].
Proof.
  assert (CONS : forall m o, (announced m = [] \/ exists n, announced m = [n] /\ (n <= 32767)%N) -> heard None (m :: o) = m :: heard None o ->
    (Forall (fun n => n <= 32767)%N (flat_map announced o) /\ heard None o = o)
    \/ (exists o1 m n o2, o = o1 ++ m :: o2 /\ announced m = [n] /\ (32767 < n)%N /\ Forall (fun n => n <= 32767)%N (flat_map announced o1)
        /\ heard None o = o1 ++ [m]) ->
    (Forall (fun n => n <= 32767)%N (flat_map announced (m :: o)) /\ heard None (m :: o) = m :: o)
    \/ (exists o1 m' n o2, m :: o = o1 ++ m' :: o2 /\ announced m' = [n] /\ (32767 < n)%N /\ Forall (fun n => n <= 32767)%N (flat_map announced o1)
        /\ heard None (m :: o) = o1 ++ [m'])).
  { intros m o' Hm Hh D. rewrite Hh.
    assert (HF : forall l, Forall (fun n => n <= 32767)%N (flat_map announced l) -> Forall (fun n => n <= 32767)%N (flat_map announced (m :: l))).
    { intros l Hl. cbn [flat_map]. apply Forall_app. split; [|exact Hl]. destruct Hm as [->|(n & -> & Hn)]; repeat constructor. exact Hn. }
    destruct D as [[D1 ->]|(o1 & m' & n & o2 & -> & E & Hn & D1 & ->)].
    - left. auto.
    - right. exists (m :: o1), m', n, o2. repeat split; auto. }
  induction o as [|m o IH]; [left; split; [constructor|reflexivity]|].
  destruct m as [n|n|a b|n].
  - destruct (N.lt_ge_cases 32767 n) as [C|C].
    + right. exists [], (Lit n), n, o. repeat split; [exact C|constructor|]. cbn. replace (32767 <? n)%N with true by lia. reflexivity.
    + apply CONS; [right; exists n; auto| |exact IH]. cbn. replace (32767 <? n)%N with false by lia. reflexivity.
  - destruct (N.lt_ge_cases 32767 n) as [C|C].
    + right. exists [], (Rep n), n, o. repeat split; [exact C|constructor|]. cbn. replace (32767 <? n)%N with true by lia. reflexivity.
    + apply CONS; [right; exists n; auto| |exact IH]. cbn. replace (32767 <? n)%N with false by lia. reflexivity.
  - apply CONS; [left; reflexivity|reflexivity|exact IH].
  - apply CONS; [left; reflexivity|reflexivity|exact IH].
Qed.

Lemma announced_map syms : flat_map announced (map announcement syms) = map symbol_len syms.
Proof. induction syms as [|[d|len back] syms IH]; cbn; [reflexivity| |]; now rewrite IH. Qed.
Lemma announced_filter o : flat_map announced (filter is_announcement o) = flat_map announced o.
Proof. induction o as [|m o IH]; [reflexivity|]. destruct m; cbn; now rewrite IH. Qed.

Lemma back_says_vec T (next : nextf T N) s l pr caps fuel : delivers next s l -> caps_ok caps -> (length l < fuel)%nat ->
  let o := fst (zip_back_says next pr caps fuel s vec_writer) in
  match run_vec (zip_back_encode next pr caps fuel s) with
  | Ok _ => told MAX_RING_BUFFER_SIZE [] [] l o /\ Forall (fun n => n <= 32767)%N (flat_map announced o)
            /\ fold_right N.add 0%N (flat_map announced o) = N.of_nat (length l)
  | Err => False
  | Panic => exists o1 m n, o = o1 ++ [m] /\ announced m = [n] /\ (32767 < n)%N /\ Forall (fun n => n <= 32767)%N (flat_map announced o1)
             /\ exists o2, told MAX_RING_BUFFER_SIZE [] [] l (o ++ o2)
  end.
Proof.
  intros Hd Hc Hf. cbv zeta. destruct (back_says T next s l pr caps fuel Hd Hc Hf) as (o & Ht & Hw).
  rewrite (Hw vec_writer). cbn [vec_writer room].
  destruct (back_total T next s l pr caps fuel Hd Hc Hf) as (syms & Hp & ->).
  destruct (told_parses _ _ _ _ _ Ht) as (syms' & Hp' & He). rewrite (parses_fun Hp' Hp) in He.
  assert (HA : flat_map announced o = map symbol_len syms) by (rewrite <- announced_filter, He; apply announced_map).
  pose proof (told_total _ _ _ _ _ Ht) as HT. unfold total in HT.
  destruct (forallb (fun x => symbol_len x <=? 32767)%N syms) eqn:EF.
  - rewrite forallb_forall in EF.
    assert (HB : Forall (fun n => n <= 32767)%N (flat_map announced o)).
    { rewrite HA, Forall_map. apply Forall_forall. intros x Hx. specialize (EF x Hx). lia. }
    destruct (heard_vec o) as [[_ ->]|(o1 & m & n & o2 & -> & Em & Hn & _)].
    + auto.
    + exfalso. rewrite flat_map_app in HB. apply Forall_app in HB as [_ HB]. cbn [flat_map] in HB. rewrite Em in HB. inversion HB; subst. lia.
  - destruct (heard_vec o) as [[HB _]|(o1 & m & n & o2 & -> & Em & Hn & HB & ->)].
    + exfalso. apply Bool.not_true_iff_false in EF. apply EF. apply forallb_forall. intros x Hx.
      rewrite HA, Forall_map, Forall_forall in HB. specialize (HB x Hx). cbn beta in HB. lia.
    + exists o1, m, n. split; [reflexivity|]. split; [exact Em|]. split; [exact Hn|]. split; [exact HB|]. exists o2. now rewrite <- app_assoc.
Qed.

(** ** Images *)
Lemma back_says_image pr caps fuel im out : img_ok im -> caps_ok caps -> (length (zip_input im) < fuel)%nat ->
  run_vec (zip_encode pr caps fuel ZBack im) = Ok out ->
  fold_right N.add 0%N (flat_map announced (fst (zip_back_says zip_bytes_next pr caps fuel (zip_bytes im) vec_writer))) = (8 + 11 * (im_w im * im_h im))%N.
Proof.
  intros Hi Hc Hf E. rewrite zip_encode_back in E.
  pose proof (back_says_vec _ zip_bytes_next (zip_bytes im) (zip_input im) pr caps fuel (zip_bytes_deliver im Hi) Hc Hf) as H.
  cbv zeta in H. rewrite E in H. destruct H as (_ & _ & ->). now apply zip_input_len.
Qed.
