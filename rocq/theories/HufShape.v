(** * The shape of Huffman trees (C87). *)
From Verif Require Import Base Ser SerSpec SerProofs Bit BitSpec Utils UtilsProofs Huf HufSpec HufProofs HufOpt HufTop HufShapeSpec.
From Coq Require Import ZifyBool ZifyNat ZifyN.
Set Implicit Arguments.

Lemma fib_SS n : fib (S (S n)) = (fib n + fib (S n))%N.
Proof. unfold fib. cbn [fibs]. destruct (fibs n). reflexivity. Qed.
Lemma fib_pos n : (1 <= fib n)%N /\ (fib n <= fib (S n))%N.
Proof.
  induction n as [|n [IH1 IH2]]; [cbv; split; discriminate|]. rewrite fib_SS. split; lia.
Qed.
Lemma fib_mono n m : (n <= m)%nat -> (fib n <= fib m)%N.
Proof. induction 1; [lia|]. pose proof (fib_pos m). lia. Qed.

Section Shape.
  Context {A : Type} (w : bintrie A -> N).
  Definition pairs_of (ps : list (bintrie A * bintrie A)) : list N := flat_map (fun p => [w (fst p); w (snd p)]) ps.

  Lemma rising_app l a b : rising l -> (forall x, In x l -> (x <= a)%N) -> (a <= b)%N -> rising (l ++ [a; b]).
  Proof.
    induction l as [|x [|y l] IH]; intros R B L; cbn [app rising].
    - auto.
    - split; [apply B; now left|auto].
    - destruct R as [R1 R2]. split; [exact R1|]. apply IH; [exact R2| |exact L]. intros z Hz. apply B. now right.
  Qed.

  (** children of a root *)
  Definition kids (t : bintrie A) : list (bintrie A) := match t with Leaf _ => [] | Branch l r => [l; r] end.
  Fixpoint fair (t : bintrie A) : Prop :=
    match t with
    | Leaf _ => True
    | Branch l r => (w l <= w r)%N /\ (forall k, In k (kids r) -> (w k <= w l)%N) /\ fair l /\ fair r
    end.
  Definition shape_inv (l : list (suffix A)) : Prop :=
    (forall s, In s l -> fst s = w (snd s) /\ fair (snd s))
    /\ (forall s u k, In s l -> In u l -> In k (kids (snd s)) -> (w k <= fst u)%N)
    /\ exists ps, Permutation ps (flat_map (fun s => siblings (snd s)) l) /\ rising (pairs_of ps)
       /\ forall x s, In x (pairs_of ps) -> In s l -> (x <= fst s)%N.

  Context (Hw : forall l r, w (Branch l r) = (w l + w r)%N).
  Context (H : heap (suffix A)) (HH : heap_ok suffix_cmp H).

  Lemma pairs_app a b : pairs_of (a ++ b) = pairs_of a ++ pairs_of b.
  Proof. apply flat_map_app. Qed.

  Lemma build_shape freqs : freqs <> [] -> (forall x n, In (x, n) freqs -> n = w (Leaf x)) ->
    exists t, build_tree H freqs = Ok t /\ fair t
      /\ exists ps, Permutation ps (siblings t) /\ rising (pairs_of ps).
  Proof.
    intros Hne Hf. destruct (@build_tree_inv A H HH shape_inv freqs) as [s [E (I1 & _ & ps & I3 & I4 & _)]].
    - intros l1 l2 P (I1 & I2 & ps & I3 & I4 & I5).
      assert (Q : forall s, In s l2 -> In s l1) by (intros s; apply Permutation_in; now symmetry).
      split; [eauto|]. split; [eauto|]. exists ps. split; [rewrite I3; now apply Permutation_flat_map|]. eauto.
    - intros a b rest (I1 & I2 & ps & I3 & I4 & I5) Ma Mb.
      assert (Ia : In a (a :: b :: rest)) by now left. assert (Ib : In b (a :: b :: rest)) by (right; now left).
      destruct (I1 a Ia) as [Wa Fa]. destruct (I1 b Ib) as [Wb Fb].
      assert (Lab : (fst a <= fst b)%N) by (apply Ma; now left).
      assert (R : forall s, In s rest -> In s (a :: b :: rest)) by (intros s Hs; right; now right).
      split; [|split].
      + intros s [<-|Hs]; [|auto]. cbn [fst snd fair]. rewrite Hw, Wa, Wb. split; [reflexivity|].
        split; [lia|]. split; [|auto]. intros k Hk. rewrite <- Wa. exact (I2 b a k Ib Ia Hk).
      + intros s u k [<-|Hs] [<-|Hu] Hk; cbn [fst snd kids] in *.
        * destruct Hk as [<-|[<-|[]]]; lia.
        * pose proof (Ma u ltac:(now right)). pose proof (Mb u Hu). destruct Hk as [<-|[<-|[]]]; lia.
        * pose proof (I2 s a k (R _ Hs) Ia Hk). lia.
        * exact (I2 s u k (R _ Hs) (R _ Hu) Hk).
      + exists (ps ++ [(snd a, snd b)]). rewrite pairs_app. unfold pairs_of at 2 4. cbn [flat_map fst snd app]. split; [|split].
        * cbn [flat_map siblings snd]. rewrite Permutation_app_comm. cbn [app]. apply perm_skip.
          rewrite I3. cbn [flat_map]. now rewrite app_assoc.
        * rewrite <- Wa, <- Wb. apply rising_app; [exact I4| |exact Lab]. intros x Hx. exact (I5 x a Hx Ia).
        * intros x s Hx Hs. rewrite <- Wa, <- Wb in Hx. apply in_app_iff in Hx as [Hx|[<-|[<-|[]]]]; destruct Hs as [<-|Hs]; cbn [fst].
          -- pose proof (I5 x a Hx Ia). lia.
          -- exact (I5 x s Hx (R _ Hs)).
          -- lia.
          -- pose proof (Ma s ltac:(now right)). lia.
          -- lia.
          -- exact (Mb s Hs).
    - split; [|split].
      + intros s Hs. apply in_map_iff in Hs as [[x n] [<- Hx]]. cbn. auto.
      + intros s u k Hs _ Hk. apply in_map_iff in Hs as [[x n] [<- Hx]]. destruct Hk.
      + exists []. split; [|split; [exact I|contradiction]].
        replace (flat_map _ _) with (@nil (bintrie A * bintrie A)); [constructor|].
        clear. induction freqs as [|[x n] f IH]; [reflexivity|exact IH].
    - exact Hne.
    - exists (snd s). split; [exact E|]. split; [apply I1; now left|]. exists ps. cbn [flat_map] in I3.
      rewrite app_nil_r in I3. auto.
  Qed.

  (** Deep trees are heavy *)
  Context (Hpos : forall x, (1 <= w (Leaf x))%N).
  Lemma weight_pos (t : bintrie A) : (forall x, In x (leaves t) -> (1 <= w (Leaf x))%N) -> (1 <= w t)%N.
  Proof.
    induction t as [v|l IHl r IHr]; intros Hp; [apply Hp; now left|]. rewrite Hw.
    assert (1 <= w l)%N by (apply IHl; intros x Hx; apply Hp; cbn; apply in_app_iff; auto). lia.
  Qed.
End Shape.

Section Deep.
  Context {A : Type} (w : bintrie A -> N) (Hw : forall l r, w (Branch l r) = (w l + w r)%N).
  Lemma fair_deep (t : bintrie A) c x : path t c x -> fair w t -> (forall x, In x (leaves t) -> (1 <= w (Leaf x))%N) ->
    (fib (S (length c)) <= w t)%N
    /\ (forall k c' b, t = Branch (fst k) (snd k) -> c = b :: c' -> (fib (length c) <= w (if b : bool then snd k else fst k))%N).
  Proof.
    intros P. induction P as [v|l r c v P IH|l r c v P IH]; intros F Hp.
    - split; [|discriminate]. cbn. apply Hp. now left.
    - cbn [fair leaves] in *. destruct F as (F1 & F2 & F3 & F4).
      destruct (IH F3 ltac:(intros; apply Hp, in_app_iff; auto)) as [G1 G2]. cbn [length]. split.
      2: { intros [k1 k2] c' b [= <- <-] [= <- <-]. exact G1. }
      rewrite fib_SS, Hw. clear IH.
      assert (fib (length c) <= w r)%N; [|lia]. pose proof (fib_pos (length c)). lia.
    - cbn [fair leaves] in *. destruct F as (F1 & F2 & F3 & F4).
      destruct (IH F4 ltac:(intros; apply Hp, in_app_iff; auto)) as [G1 G2]. cbn [length]. split.
      2: { intros [k1 k2] c' b [= <- <-] [= <- <-]. exact G1. }
      rewrite fib_SS, Hw. assert (fib (length c) <= w l)%N; [|lia].
      destruct c as [|b c'].
      + change (fib (length (@nil bool))) with 1%N. apply (weight_pos w Hw). intros; apply Hp, in_app_iff; auto.
      + inversion P; subst.
        * specialize (G2 (l0, r0) c' false eq_refl eq_refl). cbn [fst] in G2. specialize (F2 l0 ltac:(now left)). lia.
        * specialize (G2 (l0, r0) c' true eq_refl eq_refl). cbn [snd] in G2. specialize (F2 r0 ltac:(right; now left)). lia.
  Qed.
  Lemma path_in {B} (t : bintrie B) c x : path t c x -> In x (leaves t).
  Proof. intros P. apply leaves_path. eauto. Qed.
  Lemma weight_leaf (t : bintrie A) x : In x (leaves t) -> (w (Leaf x) <= w t)%N.
  Proof.
    induction t as [v|l IHl r IHr]; cbn [leaves]; intros Hx; [destruct Hx as [->|[]]; lia|].
    rewrite Hw. apply in_app_iff in Hx as [Hx|Hx]; [specialize (IHl Hx)|specialize (IHr Hx)]; lia.
  Qed.
  (** A symbol with half of the weight is at depth at most one. *)
  Lemma fair_half (t : bintrie A) c x : path t c x -> fair w t -> (forall x, In x (leaves t) -> (1 <= w (Leaf x))%N) ->
    (w t <= 2 * w (Leaf x))%N -> (length c <= 1)%nat.
  Proof.
    intros P F Hp L. destruct P as [v|l r c v P|l r c v P]; cbn [length]; [lia| |];
      cbn [fair leaves] in *; destruct F as (F1 & F2 & F3 & F4); rewrite Hw in L;
      (destruct c as [|b c]; [cbn; lia|exfalso]).
    - assert (w (Leaf v) < w l)%N; [|lia].
      inversion P as [|l0 r0 c0 v0 P0|l0 r0 c0 v0 P0]; subst; rewrite Hw; pose proof (weight_leaf _ _ (path_in P0)).
      + assert (1 <= w r0)%N; [|lia]. apply (weight_pos w Hw). intros y Hy. apply Hp. cbn [leaves]. rewrite !in_app_iff. auto.
      + assert (1 <= w l0)%N; [|lia]. apply (weight_pos w Hw). intros y Hy. apply Hp. cbn [leaves]. rewrite !in_app_iff. auto.
    - inversion P as [|l0 r0 c0 v0 P0|l0 r0 c0 v0 P0]; subst; rewrite Hw in *; pose proof (weight_leaf _ _ (path_in P0)).
      + specialize (F2 l0 ltac:(now left)). assert (1 <= w r0)%N; [|lia]. apply (weight_pos w Hw). intros y Hy. apply Hp. cbn [leaves]. rewrite !in_app_iff. auto.
      + specialize (F2 r0 ltac:(right; now left)). assert (1 <= w l0)%N; [|lia]. apply (weight_pos w Hw). intros y Hy. apply Hp. cbn [leaves]. rewrite !in_app_iff. auto.
  Qed.
End Deep.
