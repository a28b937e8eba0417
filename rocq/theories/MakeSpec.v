(** * Specification vocabulary for the Makefile as a whole (C81). *)
From Coq Require Import String.
From Verif Require Import Base Prs Special SpecialSpec MakeGraph.
Close Scope string_scope.
Open Scope list_scope.

(** These files exist *)
Definition stocked (need : list text) (fs : folder) : Prop := forall t, In t need -> fs t = true.
(** The sizes of the voronoi codec in the diagrams *)
Definition voronoi_sizes : list N := [64; 128; 256; 512; 1024; 2048]%N.
(** The tables of the slow codecs other than zip(back) *)
Definition slow_tables : list text :=
  map (fun n => txt "output/cluster-colors_" ++ decimal n ++ txt ".csv") [16; 32; 64; 128; 256]%N
  ++ map (fun n => txt "output/voronoi_" ++ decimal n ++ txt ".csv") voronoi_sizes.
(** The distances of the diagrams *)
Definition approx_sizes : list text := [txt "1"; txt "2"; txt "4"; txt "8"; txt "16"].
