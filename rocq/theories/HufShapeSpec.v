(** * Specification vocabulary for the shape of Huffman trees (C87). *)
From Verif Require Import Base Utils Huf HufSpec.

(** How many items end up in a subtree *)
Definition weight {A} (eqb : A -> A -> bool) (items : list A) (t : bintrie A) : N :=
  fold_right N.add 0%N (map (fun x => occurs eqb x items) (leaves t)).

(** All pairs of siblings *)
Fixpoint siblings {A} (t : bintrie A) : list (bintrie A * bintrie A) :=
  match t with Leaf _ => [] | Branch l r => (l, r) :: siblings l ++ siblings r end.

(** Never decreasing *)
Fixpoint rising (l : list N) : Prop :=
  match l with x :: ((y :: _) as l) => (x <= y)%N /\ rising l | _ => True end.

(** 1, 1, 2, 3, 5, 8, ...: [fib 0], [fib 1], ... *)
Fixpoint fibs (n : nat) : N * N := match n with O => (1, 1)%N | S n => let '(a, b) := fibs n in (b, a + b)%N end.
Definition fib (n : nat) : N := fst (fibs n).

(** What the program is said to do with the levels of README.md:90-107 and 146-200: the
    picture, the traversal, and the levels and differences along it. *)
Definition readme_rows : list N := [6; 8; 7; 7;  6; 8; 7; 8;  7; 5; 9; 9;  3; 3; 8; 9]%N.
Definition readme_curve : list (N * N) :=
  [(0, 3); (1, 3); (1, 2); (0, 2); (0, 1); (0, 0); (1, 0); (1, 1);
   (2, 1); (2, 0); (3, 0); (3, 1); (3, 2); (2, 2); (2, 3); (3, 3)]%N.
Definition readme_levels : list N := [3; 3; 5; 7; 6; 6; 8; 8; 7; 7; 7; 8; 9; 9; 8; 9]%N.
Definition readme_diffs : list Z := [3; 0; 2; 2; -1; 0; 2; 0; -1; 0; 0; 1; 1; 0; -1; 1]%Z.
(** README.md:186-196 *)
Definition readme_tree : bintrie Z :=
  Branch (Leaf 0%Z) (Branch (Branch (Leaf (-1)%Z) (Leaf 1%Z)) (Branch (Leaf 2%Z) (Leaf 3%Z))).
(** Symbols renamed *)
Fixpoint tree_map {A B} (f : A -> B) (t : bintrie A) : bintrie B :=
  match t with Leaf v => Leaf (f v) | Branch l r => Branch (tree_map f l) (tree_map f r) end.
(** A level shown in some of the channels, and a difference of such levels *)
Definition tint (r g b : bool) (v : N) : N * N * N := ((if r then v else 0), (if g then v else 0), (if b then v else 0))%N.
Definition tint_diff (r g b : bool) (z : Z) : list Z := [if r then z else 0; if g then z else 0; if b then z else 0]%Z.
