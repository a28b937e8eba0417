(** * C86: the unit tests of the repository pass on every run. *)
From Coq Require Import String.
From Verif Require Import Base Ser Bit Huf HufSpec HufTop Dict Back BackSpec Float HilbertC Kmeans KmeansSpec KmeansCases ClusterC Prs RepoTests RepoTestsProofs.
Close Scope string_scope.
Open Scope list_scope.
Notation length := List.length.

(** C86: the parser, in both build profiles; *)
Theorem C86_prs : forall p, Forall passed (prs_tests p).
Proof. exact prs_pass. Qed.
Print Assumptions C86_prs.
(** bits; *)
Theorem C86_bit : Forall passed bit_tests.
Proof. exact bit_pass. Qed.
Print Assumptions C86_bit.
(** Huffman codes, whatever the heap does with equal frequencies; *)
Theorem C86_huf : forall H fuel, heap_ok suffix_cmp H -> (4 <= fuel)%nat -> Forall passed (huf_tests H fuel).
Proof. exact huf_pass. Qed.
Print Assumptions C86_huf.
(** zip-dict, with room for two nested calls; *)
Theorem C86_dict : forall fuel stack, (20 <= fuel)%nat -> (2 <= stack)%nat -> Forall passed (dict_tests fuel stack).
Proof. exact dict_pass. Qed.
Print Assumptions C86_dict.
(** zip-back, whatever capacities the buffer gets; *)
Theorem C86_back : forall p caps fuel, caps_ok caps -> (20 <= fuel)%nat -> Forall passed (back_tests p caps fuel).
Proof. exact back_pass. Qed.
Print Assumptions C86_back.
(** k-means, whatever the unstable sort does with equal distances and whatever the random numbers are: no test needs a second
    pass over the points, or a random number; *)
Theorem C86_kmeans : forall sorted rng fuel vfuel start, sort_ok sorted -> (1 <= fuel)%nat -> Forall passed (kmeans_tests sorted rng fuel vfuel start).
Proof. exact kmeans_pass. Qed.
Print Assumptions C86_kmeans.
(** distances and means of colours. *)
Theorem C86_cluster : forall p, Forall passed (cluster_tests p).
Proof. exact cluster_pass. Qed.
Print Assumptions C86_cluster.

(** There are 84 tests; a heap, a sort and capacities as above exist; and a test can fail. *)
Example C86_case : length (prs_tests Debug ++ bit_tests ++ huf_tests (@list_heap N) 4 ++ dict_tests 20 2 ++ back_tests Debug (fun _ => 6%nat) 20
    ++ kmeans_tests insertion_sort (fun _ => 0%N) 1 0 0 ++ cluster_tests Debug) = 84%nat
  /\ heap_ok suffix_cmp (@list_heap N) /\ sort_ok insertion_sort /\ caps_ok (fun _ => 6%nat)
  /\ ~ passed ("wrong"%string, call_failure Debug "a(b)") /\ ~ passed ("wrong"%string, back_enc_test Debug (fun _ => 6%nat) 20 (ones 16) [Explicit (ones 16)])
  /\ ~ passed ("wrong"%string, with_cluster insertion_sort (fun _ => 0%N) 1 0 0 (square_centered_at (0, 0)%Z) 1 (fun c => centroids_are c [(1, 0)%Z])).
Proof.
  split; [reflexivity|]. split; [apply list_heap_ok|]. split; [exact insertion_sort_ok|]. split; [intros i; apply Nat.le_refl|].
  split; [vm_compute; discriminate|]. split; vm_compute; discriminate.
Qed.
