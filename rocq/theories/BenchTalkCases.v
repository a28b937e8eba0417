(** * Instances for C94 *)
From Coq Require Import String.
From Flocq Require Import BinarySingleNaN.
From Verif Require Import Base Prs Huf HufSpec HufTop Img Float HilbertC Kmeans KmeansSpec KmeansCases ClusterC ClusterExact Select Bench BenchSpec CodecSpec CodecCases Special BenchDisk BenchSays
  Says BackSays HilbertSays TrieStats DictSays HufSays KmeansSays CodecSays CodecSaysSpec BenchTalk.
From Coq Require Import Permutation.
Close Scope string_scope.
Open Scope list_scope.

Definition talkative : env := mkEnv Release curve (fun l => l) (@rev _) (@rev _) (@list_heap _) (@list_heap _) (fun _ => 6%nat) (mkOr insertion_sort (fun _ => 0%N) 100 100) 100 100.
(** All that is printed for the picture *)
Definition heard_for (c : any_codec) : list any_line :=
  fst (measure_talk Release (B754_zero false) talkative talkative 60 c (txt "pic.png") (inl pic) true).
(** Around the lines of the codec *)
Definition framed (size : N) (l : list codec_line) : list any_line :=
  Ours (Processing (txt "pic.png")) :: map Codecs l ++ [Ours (CompressedSize size); Ours (RawSize 96)].
Definition moved (n : N) : list KmeansSays.line :=
  [Grew 0; Moved 0 n; Stopped n; Because; Radius n; Cutoff 0; Highest 0; Lowest 0; Grew 0; Iterations 1].

Lemma talkative_ok : env_ok talkative pic.
Proof.
  split.
  - intros l. apply Permutation_refl.
  - intros l. cbn. apply Permutation_sym, Permutation_rev.
  - apply list_heap_ok.
  - apply list_heap_ok.
  - intros n. cbn. lia.
  - apply curve_visits.
  - cbn. lia.
Qed.
Lemma talkative_talks : Forall (fun c => talk_ok talkative 60 c pic) [Hufman; Delta; Zip ZDict; Zip ZBack; Hilbert (RLE (f64_of_N 0)); Hilbert MZip; ClusterColors 2; VoronoiCluster 1].
Proof.
  repeat apply Forall_cons; try apply Forall_nil; cbn [talk_ok]; try exact I; try (cbn; lia);
    (split; [apply insertion_sort_ok|split; cbn; lia]).
Qed.
Lemma heard_all :
  map heard_for [Hufman; Delta; Zip ZDict; Zip ZBack; Hilbert (RLE (f64_of_N 0)); Hilbert MZip; ClusterColors 2; VoronoiCluster 1]
  = [framed 34 []; framed 40 [];
     framed 48 (map FromDict [Converting; TrieStats (mkStats 23 22 22 267 267)]);
     framed 46 (map FromBack ([Searched 0; Searched 0; Searched 0; Searched 0; Searched 0; Searched 4; Extra 6 6; Searched 4; Lit 32; Rep 7]
                              ++ [Searched 0; Searched 3; Extra 6 6; Searched 3; Extra 11 6; Lit 2; Rep 11]));
     framed 44 [FromHilbert UsingExact];
     framed 44 (map FromDict [Converting; TrieStats (mkStats 22 21 21 264 264)]);
     framed 34 (map FromClustering (moved 2));
     framed 35 (map FromClustering (moved 4)) ++ [Ours (SavedTo (txt "output/pic.png"))]].
Proof. vm_compute. reflexivity. Qed.
