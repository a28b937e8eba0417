(** * The choice of a codec for all texts: Unicode digits, non-ASCII text, any nesting (C49). *)
From Coq Require Import String.
From Verif Require Import Base Prs PrsSpec PrsWideSpec PrsDeepSpec Regex Img Float HilbertC Select SelectSpec.
Close Scope string_scope.
Open Scope list_scope.

(** ** Numbers: like [numbered], with digits of any script *)
Section Numbers.
  Variable d : N -> bool.                  (* the class \d *)
  Definition class_at (words : list text) (s pre ds : text) : Prop :=
    (ds <> [] /\ Forall (fun c => d c = true) ds) /\ exists w post, In w words /\ s = pre ++ w ++ LPAREN :: ds ++ RPAREN :: post.
  Definition first_class (words : list text) (s ds : text) : Prop :=
    exists pre, class_at words s pre ds /\ forall pre' ds', class_at words s pre' ds' -> (List.length pre <= List.length pre')%nat.
  (** The leftmost one counts; it has to consist of ASCII digits. *)
  Definition any_numbered (words : list text) (s : text) (n : N) : Prop :=
    exists ds, first_class words s ds /\ digits ds /\ number ds = n /\ (n < 2 ^ 64)%N.
End Numbers.

(** ** What the argument parser does (the properties C46 and C47) *)
Definition accepted (p : profile) (s n : text) (a : list text) : Prop :=
  (ascii s /\ is_call s n a /\ nesting_below 65536 s)
  \/ (p = Release /\ exists name args tail, too_deep s name args tail /\ plain tail /\ Forall2 (bytes_of s) (spans name args) (n :: a)).
Definition aborted (p : profile) (s : text) : Prop :=
  miscut_first s \/ (p = Debug /\ exists name args tail, too_deep s name args tail).

Section Spec.
  Variables (p : profile) (d : N -> bool) (parse_f64 : text -> option f64).
  Definition hilbert_names : list text := [txt "hilbert"; txt "Hilbert"].
  Definition any_method (a : text) (m : method) : Prop :=
    (a = txt "rle" /\ m = RLE (f64_of_N 0))
    \/ (exists x v, accepted p a (txt "rle") [x] /\ parse_f64 x = Some v /\ m = RLE v)
    \/ (a = txt "zip" /\ m = MZip).
  Definition unnumbered (s : text) : Prop := (forall n, ~ any_numbered d cluster_words s n) /\ (forall n, ~ any_numbered d voronoi_words s n).
  Definition any_selects (s : text) (c : any_codec) : Prop :=
    (exists n, any_numbered d cluster_words s n /\ c = ClusterColors n)
    \/ ((forall n, ~ any_numbered d cluster_words s n) /\ exists n, any_numbered d voronoi_words s n /\ c = VoronoiCluster n)
    \/ (unnumbered s /\
        ((s = txt "delta" /\ c = Delta)
         \/ (exists h a m, In h hilbert_names /\ accepted p s h [a] /\ any_method a m /\ c = Hilbert m)
         \/ (Forall2 (fun c l => c = l \/ c + 32 = l)%N s (txt "hufman") /\ c = Hufman)
         \/ (accepted p s (txt "zip") [txt "dict"] /\ c = Zip ZDict)
         \/ (accepted p s (txt "zip") [txt "back"] /\ c = Zip ZBack))).
  (** The text aborts the program: the parser aborts on the text or on the argument of hilbert, or that is a call of rle without arguments. *)
  Definition select_aborts (s : text) : Prop :=
    unnumbered s /\ (aborted p s \/ exists h a, In h hilbert_names /\ accepted p s h [a] /\ (aborted p a \/ accepted p a (txt "rle") [])).
End Spec.
