(** * The unit tests of the repository pass, whatever the heap, the sort, the random numbers and the capacities (C86). *)
From Coq Require Import String.
From Flocq Require Import BinarySingleNaN.
From Verif Require Import Base Ser SerSpec Bit Utils Huf HufSpec HufTop Dict DictSpec DictProofs Back BackSpec BackProofs BackDec Img Float HilbertC Kmeans KmeansSpec ClusterC Prs Regex Select RepoTests.
Close Scope string_scope.
Open Scope list_scope.
Notation length := List.length.

Ltac each := repeat (apply Forall_cons; [unfold passed; cbn [snd]|]); [..|apply Forall_nil].

Lemma prs_pass p : Forall passed (prs_tests p).
Proof. unfold prs_tests. each; destruct p; vm_compute; reflexivity. Qed.
Lemma bit_pass : Forall passed bit_tests.
Proof. unfold bit_tests. each; vm_compute; reflexivity. Qed.
Lemma cluster_pass p : Forall passed (cluster_tests p).
Proof. unfold cluster_tests. each; destruct p; vm_compute; reflexivity. Qed.
Lemma at_least n k : (k <= n)%nat -> exists m, n = (k + m)%nat.
Proof. intros H. exists (n - k)%nat. lia. Qed.
Lemma dict_pass fuel stack : (20 <= fuel)%nat -> (2 <= stack)%nat -> Forall passed (dict_tests fuel stack).
Proof.
  intros Hf Hs. destruct (at_least _ _ Hf) as [m ->]. destruct (at_least _ _ Hs) as [k ->]. clear. unfold dict_tests. each; vm_compute; reflexivity.
Qed.
Lemma back_pass p caps fuel : caps_ok caps -> (20 <= fuel)%nat -> Forall passed (back_tests p caps fuel).
Proof.
  intros Hc Hf.
  assert (E : forall l, (length l <= 16)%nat -> run_vec (zip_back_encode list_next p caps fuel l) = run_vec (zip_back_encode list_next Debug (fun _ => 6%nat) 20 l)).
  { intros l Hl. unfold run_vec. rewrite (@back_independent _ list_next l _ list_next l l p Debug caps (fun _ => 6%nat) fuel 20);
      [reflexivity|apply list_delivers|apply list_delivers|assumption|intros i; apply Nat.le_refl|lia|lia]. }
  destruct (at_least _ _ Hf) as [m Em].
  unfold back_tests, back_enc_test, back_dec_test. each; rewrite E by (cbn; lia); rewrite ?Em; destruct p; vm_compute; reflexivity.
Qed.

(** ** Huffman: whatever the heap does with equal frequencies, there are four trees. *)
Definition abc_trees : list (bintrie N) :=
  let a := Leaf 97%N in let bc := Branch (Leaf 98%N) (Leaf 99%N) in let cb := Branch (Leaf 99%N) (Leaf 98%N) in
  [Branch a bc; Branch a cb; Branch bc a; Branch cb a].

Lemma pop_cases (H : heap (suffix N)) h l : heap_ok suffix_cmp H -> Permutation (hp_elems H h) l -> l <> [] ->
  exists e h' l', hp_pop H h = Some (e, h') /\ Permutation (hp_elems H h') l' /\ Permutation l (e :: l') /\ forall x, In x l -> (fst e <= fst x)%N.
Proof.
  intros K P Hl. destruct (hp_pop H h) as [[e h']|] eqn:E.
  - destruct (ho_some K _ E) as [P1 M]. exists e, h', (hp_elems H h'). split; [reflexivity|]. split; [apply Permutation_refl|].
    assert (P2 : Permutation l (e :: hp_elems H h')) by (eapply Permutation_trans; [apply Permutation_sym; exact P|exact P1]). split; [exact P2|].
    intros x Hx. apply (Permutation_in x P2) in Hx. destruct Hx as [<-|Hx]; [apply N.le_refl|]. specialize (M _ Hx). unfold suffix_cmp in M.
    destruct (N.compare_spec (fst e) (fst x)); cbn in M; [lia|lia|congruence].
  - apply (ho_none K) in E. rewrite E in P. apply Permutation_nil in P. contradiction.
Qed.
Lemma abc_tree (H : heap (suffix N)) : heap_ok suffix_cmp H -> exists t, build_tree H [(97, 2); (98, 1); (99, 1)]%N = Ok t /\ In t abc_trees.
Proof.
  intros K. unfold build_tree. set (items := [(97, 2); (98, 1); (99, 1)]%N).
  set (a := (2, Leaf 97)%N : suffix N). set (b := (1, Leaf 98)%N : suffix N). set (c := (1, Leaf 99)%N : suffix N).
  assert (P0 : Permutation (hp_elems H (hp_of H (map suffix_from items))) [a; b; c]) by apply (ho_of K).
  set (h0 := hp_of H (map suffix_from items)) in *.
  assert (L0 : length (hp_elems H h0) = 3%nat) by (rewrite (Permutation_length P0); reflexivity).
  rewrite L0. cbn [Nat.ltb Nat.leb assert_ res_bind length items]. cbn [huf_loop]. rewrite L0. cbn [Nat.ltb Nat.leb].
  destruct (pop_cases H h0 [a; b; c] K P0) as (e1 & h1 & l1 & -> & P1 & Q1 & M1); [discriminate|].
  assert (X1 : (e1 = b /\ Permutation l1 [a; c]) \/ (e1 = c /\ Permutation l1 [a; b])).
  { pose proof (M1 b (or_intror (or_introl eq_refl))) as Mb. assert (I : In e1 [a; b; c]) by (apply (Permutation_in e1 (Permutation_sym Q1)); now left).
    destruct I as [<-|[<-|[<-|[]]]]; [cbn in Mb; lia|left|right]; (split; [reflexivity|]).
    - apply (Permutation_cons_inv (a := b)). eapply Permutation_trans; [apply Permutation_sym; exact Q1|apply perm_swap].
    - apply (Permutation_cons_inv (a := c)). eapply Permutation_trans; [apply Permutation_sym; exact Q1|]. apply Permutation_sym, (Permutation_cons_append [a; b] c). }
  assert (X2 : exists u v, (u = b /\ v = c \/ u = c /\ v = b) /\ e1 = u /\ Permutation l1 [a; v]) by (destruct X1 as [[-> ?]|[-> ?]]; [exists b, c|exists c, b]; auto).
  clear X1. destruct X2 as (u & v & Huv & -> & Pl1).
  assert (Hu : fst u = 1%N /\ fst v = 1%N) by (destruct Huv as [[-> ->]|[-> ->]]; split; reflexivity).
  destruct (pop_cases H h1 [a; v] K (Permutation_trans P1 Pl1)) as (e2 & h2 & l2 & -> & P2 & Q2 & M2); [discriminate|].
  assert (X2 : e2 = v /\ Permutation l2 [a]).
  { pose proof (M2 v (or_intror (or_introl eq_refl))) as Mb. assert (I : In e2 [a; v]) by (apply (Permutation_in e2 (Permutation_sym Q2)); now left).
    destruct I as [<-|[<-|[]]]; [cbn in Mb; lia|]. split; [reflexivity|]. apply (Permutation_cons_inv (a := v)). eapply Permutation_trans; [apply Permutation_sym; exact Q2|apply perm_swap]. }
  destruct X2 as [-> Pl2]. pose proof (Permutation_trans P2 Pl2) as P2'.
  set (n := ((fst u + fst v)%N, Branch (snd u) (snd v))). set (h3 := hp_push H n h2).
  assert (P3 : Permutation (hp_elems H h3) [n; a]) by (eapply Permutation_trans; [apply (ho_push K)|now apply perm_skip]).
  assert (L3 : length (hp_elems H h3) = 2%nat) by (rewrite (Permutation_length P3); reflexivity). cbn [huf_loop]. rewrite L3. cbn [Nat.ltb Nat.leb].
  destruct (pop_cases H h3 [n; a] K P3) as (e4 & h4 & l4 & -> & P4 & Q4 & _); [discriminate|].
  assert (X4 : exists x y, (x = n /\ y = a \/ x = a /\ y = n) /\ e4 = x /\ Permutation l4 [y]).
  { assert (I : In e4 [n; a]) by (apply (Permutation_in e4 (Permutation_sym Q4)); now left).
    destruct I as [<-|[<-|[]]]; [exists n, a|exists a, n]; (split; [auto|]; split; [reflexivity|]).
    - apply (Permutation_cons_inv (a := n)). apply Permutation_sym. exact Q4.
    - apply (Permutation_cons_inv (a := a)). eapply Permutation_trans; [apply Permutation_sym; exact Q4|apply perm_swap]. }
  destruct X4 as (x & y & Hxy & -> & Pl4).
  destruct (pop_cases H h4 [y] K (Permutation_trans P4 Pl4)) as (e5 & h5 & l5 & -> & P5 & Q5 & _); [discriminate|].
  assert (e5 = y /\ l5 = []) as [-> ->] by (apply Permutation_length_1_inv in Q5; injection Q5 as -> ->; auto).
  set (m := ((fst x + fst y)%N, Branch (snd x) (snd y))). set (h6 := hp_push H m h5).
  assert (P6 : Permutation (hp_elems H h6) [m]) by (eapply Permutation_trans; [apply (ho_push K)|apply perm_skip; exact P5]).
  assert (L6 : length (hp_elems H h6) = 1%nat) by (rewrite (Permutation_length P6); reflexivity). cbn [huf_loop]. rewrite L6. cbn [Nat.ltb Nat.leb res_bind].
  destruct (pop_cases H h6 [m] K P6) as (e7 & h7 & l7 & -> & P7 & Q7 & _); [discriminate|].
  assert (e7 = m) as -> by (apply Permutation_length_1_inv in Q7; injection Q7 as -> ->; auto).
  exists (snd m). split; [reflexivity|]. unfold m, n. cbn [snd].
  destruct Hxy as [[-> ->]|[-> ->]]; destruct Huv as [[-> ->]|[-> ->]]; cbn; auto 6.
Qed.
Lemma huf_pass H fuel : heap_ok suffix_cmp H -> (4 <= fuel)%nat -> Forall passed (huf_tests H fuel).
Proof.
  intros K Hf. destruct (at_least _ _ Hf) as [m ->]. destruct (abc_tree H K) as (t & E & I).
  assert (X : huf_abc H = res_map (fun codes => (t, codes)) (enc_from N.eqb t)) by (unfold huf_abc; now rewrite E).
  unfold huf_tests, enc_dec. rewrite X. clear X E K Hf. cbn [abc_trees In] in I.
  destruct I as [<-|[<-|[<-|[<-|[]]]]]; each; vm_compute; reflexivity.
Qed.

(** ** k-means: lists of at most two neighbours at different distances can only be sorted in one way. *)
Definition short_sort (sorted : list (nat * f64) -> list (nat * f64)) (l : list (nat * f64)) : list (nat * f64) :=
  match l with
  | [] => []
  | [x] => [x]
  | [x; y] => if flt (snd x) (snd y) then [x; y] else if flt (snd y) (snd x) then [y; x] else sorted l
  | _ => sorted l
  end.
Lemma flt_not_fle (a b : f64) : flt a b = true -> fle b a = false.
Proof.
  unfold flt, fle, Bltb, Bleb, SpecFloat.SFltb, SpecFloat.SFleb. pose proof (Bcompare_swap 53 1024 a b) as W. unfold Bcompare in W. rewrite W.
  now destruct (SpecFloat.SFcompare (B2SF a) (B2SF b)) as [[| |]|].
Qed.
Lemma short_sorted sorted l : sort_ok sorted -> Forall (fun e : nat * f64 => is_finite (snd e) = true) l -> sorted l = short_sort sorted l.
Proof.
  intros K F. destruct (K l F) as [P S]. destruct l as [|x [|y [|z l]]]; cbn [short_sort]; [|..|reflexivity].
  - apply Permutation_sym, Permutation_nil in P. exact P.
  - apply Permutation_sym, Permutation_length_1_inv in P. exact P.
  - assert (C : sorted [x; y] = [x; y] \/ sorted [x; y] = [y; x]).
    { pose proof (Permutation_length P) as L. destruct (sorted [x; y]) as [|a [|b [|? ?]]]; try discriminate L. apply Permutation_length_2 in P. destruct P as [[-> ->]|[-> ->]]; auto. }
    destruct (flt (snd x) (snd y)) eqn:E1; [|destruct (flt (snd y) (snd x)) eqn:E2; [|reflexivity]]; destruct C as [C|C]; try exact C; exfalso; rewrite C in S; inversion S as [|? ? _ Q]; subst; inversion Q as [|? ? B]; subst;
      unfold by_distance in B; [rewrite (flt_not_fle _ _ E1) in B|rewrite (flt_not_fle _ _ E2) in B]; discriminate.
Qed.
Section Ext.
  Context {T : Type} (P : point T) (s s' : list (nat * f64) -> list (nat * f64)).
  Hypothesis same : forall l, Forall (fun e : nat * f64 => is_finite (snd e) = true) l -> s l = s' l.
  Lemma bind_ext {A B} (m m' : run A) (f f' : A -> run B) : (forall i, m i = m' i) -> (forall a i, f a i = f' a i) -> forall i, run_bind m f i = run_bind m' f' i.
  Proof. intros E F i. unfold run_bind. rewrite E. destruct (m' i) as [[[a j]| |]|]; auto. Qed.
  Lemma mapM_ext {A B} (f f' : A -> run B) l : (forall a i, f a i = f' a i) -> forall i, run_mapM f l i = run_mapM f' l i.
  Proof. intros E. induction l as [|a l IH]; cbn [run_mapM]; [reflexivity|]. apply bind_ext; [apply E|intros b]. apply bind_ext; [exact IH|reflexivity]. Qed.
  Lemma mapM_finite cs src l l' : res_mapM (fun e : nat * f64 => res_bind (index cs (fst e)) (fun dst => res_bind (dist P src dst) (fun d => if is_finite d then Ok (fst e, d) else Panic))) l = Ok l' ->
    Forall (fun e : nat * f64 => is_finite (snd e) = true) l'.
  Proof.
    revert l'. induction l as [|e l IH]; intros l' H; cbn [res_mapM] in H; [injection H as <-; constructor|].
    destruct (index cs (fst e)) as [dst| |]; cbn [res_bind] in H; try discriminate. destruct (dist P src dst) as [d| |]; cbn [res_bind] in H; try discriminate.
    destruct (is_finite d) eqn:E; cbn [res_bind] in H; try discriminate. match type of H with context [res_mapM ?f l] => destruct (res_mapM f l) as [r| |] eqn:R end; cbn [res_bind] in H; try discriminate.
    injection H as <-. constructor; [exact E|now apply IH].
  Qed.
  Lemma settle_ext fuel cs : forall nb, settle P s fuel cs nb = settle P s' fuel cs nb.
  Proof.
    induction fuel as [|fuel IH]; intros nb; cbn [settle]; [reflexivity|]. destruct (update_distances P cs nb) as [nb'| |] eqn:U; try reflexivity.
    rewrite same.
    - destruct (resize _ _) as [[] ?]; [reflexivity|apply IH].
    - unfold update_distances in U. destruct (index cs (src_id nb)) as [src| |]; cbn [res_bind] in U; try discriminate.
      match type of U with res_bind ?m _ = _ => destruct m as [l| |] eqn:M end; cbn [res_bind] in U; try discriminate. injection U as <-. cbn [near]. exact (mapM_finite _ _ _ _ M).
  Qed.
  Lemma compute_ext cs g : forall i, compute_neighbours P s cs g i = compute_neighbours P s' cs g i.
  Proof. unfold compute_neighbours. apply mapM_ext. intros a i. now rewrite settle_ext. Qed.
  Lemma pass_ext rng vfuel c : forall i, pass P s rng vfuel c i = pass P s' rng vfuel c i.
  Proof.
    unfold pass. apply bind_ext; [reflexivity|intros r]. apply bind_ext; [reflexivity|intros cs]. apply bind_ext; [apply compute_ext|reflexivity].
  Qed.
  Lemma passes_ext rng fuel vfuel : forall n c i, passes P s rng fuel vfuel n c i = passes P s' rng fuel vfuel n c i.
  Proof. induction fuel as [|fuel IH]; intros n c; cbn [passes]; [reflexivity|]. apply bind_ext; [apply pass_ext|]. intros [c' b] i. apply bind_ext; [reflexivity|]. intros n' i'. destruct b; [apply IH|reflexivity]. Qed.
  Lemma cluster_ext rng fuel vfuel points k : forall i, cluster P s rng fuel vfuel points k i = cluster P s' rng fuel vfuel points k i.
  Proof.
    unfold cluster. apply bind_ext.
    - unfold init. apply bind_ext; [reflexivity|intros asg]. apply bind_ext; [reflexivity|intros cs]. apply bind_ext; [apply compute_ext|reflexivity].
    - intros c. apply bind_ext; [apply passes_ext|reflexivity].
  Qed.
End Ext.
Lemma kmeans_pass sorted rng fuel vfuel start : sort_ok sorted -> (1 <= fuel)%nat -> Forall passed (kmeans_tests sorted rng fuel vfuel start).
Proof.
  intros K Hf. destruct (at_least _ _ Hf) as [m ->]. clear Hf.
  assert (X : forall points k i, cluster pair_point sorted rng (1 + m) vfuel points k i = cluster pair_point (short_sort sorted) rng (1 + m) vfuel points k i).
  { intros points k. apply cluster_ext. intros l. now apply short_sorted. }
  unfold kmeans_tests, all_clusters_test, square1_test, squares2_test, radii_test, proper_init_test, with_cluster. rewrite !X. clear X K. each; vm_compute; reflexivity.
Qed.
