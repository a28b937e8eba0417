(** * Specification vocabulary for the experiment scripts (C85). *)
From Coq Require Import String Sorted.
From Verif Require Import Base Ser Prs SelectSpec Img.
Close Scope string_scope.
Open Scope list_scope.

(** [vc] lists everything that occurs, once, with its number of occurrences, the most frequent first. *)
Definition counts_of {A} (times : A -> N) (vc : list (A * N)) : Prop :=
  NoDup (map fst vc) /\ (forall k n, In (k, n) vc <-> n = times k /\ (0 < n)%N) /\ StronglySorted (fun a b => snd b <= snd a)%N vc.
Definition sum (l : list N) : N := fold_right N.add 0%N l.
(** The channels of a pixel *)
Definition red (px : rgba) : Z := let '(r, _, _) := to_rgb px in Z.of_N r.
Definition green (px : rgba) : Z := let '(_, g, _) := to_rgb px in Z.of_N g.
Definition blue (px : rgba) : Z := let '(_, _, b) := to_rgb px in Z.of_N b.
(** How many times a channel changes by [d] from a pixel to the next *)
Definition jumps (ch : rgba -> Z) (l : list rgba) (d : Z) : N :=
  N.of_nat (length (filter (fun '(p, q) => (ch q - ch p =? d)%Z) (combine l (tl l)))).
(** How many images have these dimensions *)
Definition images_with (s : N * N) (sizes : list (N * N)) : N :=
  N.of_nat (length (filter (fun s' => (fst s' =? fst s) && (snd s' =? snd s))%N sizes)).
(** The name of these dimensions *)
Definition names_dims (s : N * N) (t : text) : Prop :=
  exists a b, t = a ++ txt "x" ++ b /\ digits a /\ digits b /\ number a = fst s /\ number b = snd s.
(** [n] different things occur in the list *)
Definition different {A} (l : list A) (n : N) : Prop := exists d, NoDup d /\ (forall x, In x d <-> In x l) /\ n = N.of_nat (length d).
(** The values of all channels of all pixels *)
Definition values (im : img) : list N := concat (map (fun px => let '(r, g, b) := to_rgb px in [r; g; b]) (im_px im)).
