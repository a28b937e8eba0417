(** * Specification vocabulary for the choice of a codec (C49). *)
From Coq Require Import String.
From Verif Require Import Base Prs PrsSpec Regex Img Float HilbertC Select.
Close Scope string_scope.
Open Scope list_scope.

(** Decimal numbers *)
Definition digits (s : text) : Prop := s <> [] /\ Forall (fun c => 48 <= c <= 57)%N s.
Definition number (s : text) : N := fold_left (fun a c => a * 10 + (c - 48))%N s 0%N.
(** The eight spellings of cluster-colors *)
Definition cluster_words : list text :=
  [txt "ccol"; txt "ccolors"; txt "c-col"; txt "c-colors"; txt "clustercol"; txt "clustercolors"; txt "cluster-col"; txt "cluster-colors"].
Definition voronoi_words : list text := [txt "voronoi"].
(** After [pre], the text [s] has one of the words and a number in parentheses. *)
Definition number_at (words : list text) (s pre ds : text) : Prop :=
  digits ds /\ exists w post, In w words /\ s = pre ++ w ++ LPAREN :: ds ++ RPAREN :: post.
(** The same, at the leftmost place in [s] *)
Definition first_number (words : list text) (s ds : text) : Prop :=
  exists pre, number_at words s pre ds /\ forall pre' ds', number_at words s pre' ds' -> (List.length pre <= List.length pre')%nat.
(** The words select a codec if the leftmost number fits into 64 bits. *)
Definition numbered (words : list text) (s : text) (n : N) : Prop := exists ds, first_number words s ds /\ number ds = n /\ (n < 2 ^ 64)%N.
Section Spec.
  Variable parse_f64 : text -> option f64.
  Definition method_for (a : text) (m : method) : Prop :=
    (a = txt "rle" /\ m = RLE (f64_of_N 0))
    \/ (exists d x, a = txt "rle(" ++ d ++ txt ")" /\ d <> [] /\ argument d /\ parse_f64 d = Some x /\ m = RLE x)
    \/ (a = txt "zip" /\ m = MZip).
  (** What the part of the text that is not cluster-colors or voronoi selects *)
  Definition plain_codec (s : text) (c : any_codec) : Prop :=
    (s = txt "delta" /\ c = Delta)
    \/ (exists a m, (s = txt "hilbert(" ++ a ++ txt ")" \/ s = txt "Hilbert(" ++ a ++ txt ")") /\ method_for a m /\ c = Hilbert m)
    \/ (Forall2 (fun c l => c = l \/ c + 32 = l)%N s (txt "hufman") /\ c = Hufman)          (* letters of either case *)
    \/ (s = txt "zip(dict)" /\ c = Zip ZDict)
    \/ (s = txt "zip(back)" /\ c = Zip ZBack).
  Definition selects (s : text) (c : any_codec) : Prop :=
    (exists n, numbered cluster_words s n /\ c = ClusterColors n)
    \/ ((forall n, ~ numbered cluster_words s n) /\ exists n, numbered voronoi_words s n /\ c = VoronoiCluster n)
    \/ ((forall n, ~ numbered cluster_words s n) /\ (forall n, ~ numbered voronoi_words s n) /\ plain_codec s c).
End Spec.
(** [\d] of the regex crate: the decimal digits of Unicode, which are 0 to 9 within ASCII *)
Definition digit_class_ok (is_digit : N -> bool) : Prop := forall c, (c < 128)%N -> is_digit c = ((48 <=? c) && (c <=? 57))%N.
