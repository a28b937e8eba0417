(** * Model of the unit tests of the repository ([#[cfg(test)]] modules).

    A test is a computation that ends normally ([Some (Ok tt)]) if it passes; a failed
    assertion is a [Panic]; [None] means that a loop ran out of fuel.  The tests are listed
    with their names, in the order of the file. *)
From Coq Require Import String.
From Flocq Require Import BinarySingleNaN.
From Verif Require Import Base Ser Bit Utils Huf Dict Back Img Float HilbertC Kmeans ClusterC Prs Regex Select.
Close Scope string_scope.
Open Scope list_scope.
Notation length := List.length.

Definition test := option (res unit).
(** A test that ends normally *)
Definition passed (e : string * test) : Prop := snd e = Some (Ok tt).
(** [assert!(b)] for each [b] in turn *)
Definition asserts (l : list bool) : test := Some (assert_ (forallb (fun b => b) l)).
(** [m.unwrap()], and the rest of the test *)
Definition and_then {A} (m : res A) (f : A -> test) : test :=
  match m with Ok a => f a | _ => Some Panic end.
(** The same for a loop with fuel *)
Definition and_loop {A} (m : option (res A)) (f : A -> test) : test :=
  match m with Some r => and_then r f | None => None end.
(** [assert_eq!] on options of texts and of calls *)
Definition opt_text_eqb (a b : option text) : bool :=
  match a, b with Some x, Some y => text_eqb x y | None, None => true | _, _ => false end.
Fixpoint list_eqb {A} (eqb : A -> A -> bool) (a b : list A) : bool :=
  match a, b with [], [] => true | x :: a, y :: b => eqb x y && list_eqb eqb a b | _, _ => false end.

(** ** src/prs.rs:228-314 *)
(** src/prs.rs:252-254 *)
Definition call_success (p : profile) (input name : string) (args : list string) : test :=
  asserts [match fun_call p (txt input) with
           | Ok (n, l) => text_eqb n (txt name) && list_eqb text_eqb l (map txt args)
           | _ => false end].
(** src/prs.rs:256-258; [None] is [Err] *)
Definition call_failure (p : profile) (input : string) : test :=
  asserts [match fun_call p (txt input) with Err => true | _ => false end].
(** src/prs.rs:232-250; the patterns are literal texts *)
Definition fully (s r : string) (expected : option string) : test :=
  asserts [opt_text_eqb (matches_fully (txt s) (lit (txt r))) (option_map txt expected)].
Definition prs_tests (p : profile) : list (string * test) :=
  [("fully0", fully "" "a" None); ("fully1a", fully "a" "a" (Some "a")); ("fully1b", fully "a" "b" None); ("fully2", fully "aa" "a" None);
   ("fun_call1", call_failure p "a"); ("fun_call2", call_failure p "a("); ("fun_call3", call_success p "a()" "a" []);
   ("fun_call4", call_failure p "a(b"); ("fun_call5", call_success p "a(b)" "a" ["b"]); ("fun_call6", call_failure p "a(b,");
   ("fun_call7", call_failure p "a(b,)"); ("fun_call8", call_success p "a(b,c)" "a" ["b"; "c"]); ("fun_call9", call_failure p "()");
   ("fun_call10", call_failure p "(a)"); ("fun_call11", call_failure p "")]%string.

(** ** src/bit.rs:261-493 *)
(** A test that writes to a [Vec] and compares the result *)
Definition writes_exactly {A} (m : io A) (expected : list N) : test := and_then (run_vec m) (fun out => asserts [list_eqb N.eqb out expected]).
(** [bw.write(b)?], [bw.write_byte(n)?] *)
Inductive bit_op := WBit (b : bool) | WByte (n : N).
Definition bit_ops (l : list bit_op) : io bw :=
  bw_iter (fun o st => match o with WBit b => bw_write b st | WByte n => bw_write_byte n st end) l (bw_new MsbFirst).
(** src/bit.rs:432-490 *)
Definition packs (bits : list bool) (full : list N) (count byte : N) : test :=
  and_then (ba_from_slice bits MsbFirst) (fun a =>
  asserts [list_eqb N.eqb (full_bytes a) full; (partial_count a =? count)%N; (partial_byte a =? byte)%N; bo_eqb (ba_order a) MsbFirst]).
Definition nths (bo : bit_order) (expected : list bool) : test :=
  asserts (map (fun i => Bool.eqb (nth_bit 178 (N.of_nat i) bo) (nth i expected false)) (seq 0 8)).
Definition f0 : list bool := [true; true; true; true; false; false; false; false].
Definition bit_tests : list (string * test) :=
  [("byte_of_b0", asserts [(bit_byte false =? 0)%N]); ("byte_of_b1", asserts [(bit_byte true =? 1)%N]);
   ("write_x00", writes_exactly (bit_ops (repeat (WBit false) 8)) [0%N]); ("write_xff", writes_exactly (bit_ops (repeat (WBit true) 8)) [255%N]);
   ("interleaved_byte", writes_exactly (bit_ops [WBit false; WBit true; WBit false; WByte 240; WBit false; WBit true; WBit true; WBit false; WBit false]) [94; 12]%N);
   ("bw_mask", writes_exactly (bit_ops [WBit false; WBit false; WBit false; WBit false; WBit true; WBit true; WBit false; WByte 255; WBit false]) [13; 254]%N);
   ("bit_mask0", asserts [(bit_mask 0 =? 0)%N]); ("bit_mask1", asserts [(bit_mask 1 =? 1)%N]); ("bit_mask2", asserts [(bit_mask 2 =? 3)%N]);
   ("bit_mask3", asserts [(bit_mask 3 =? 7)%N]); ("bit_mask4", asserts [(bit_mask 4 =? 15)%N]); ("bit_mask5", asserts [(bit_mask 5 =? 31)%N]);
   ("bit_mask6", asserts [(bit_mask 6 =? 63)%N]); ("bit_mask7", asserts [(bit_mask 7 =? 127)%N]); ("bit_mask8", asserts [(bit_mask 8 =? 255)%N]);
   ("bit_mask9", asserts [(bit_mask 9 =? 255)%N]);
   ("nth_lsb", nths LsbFirst [false; true; false; false; true; true; false; true]);
   ("nth_msb", nths MsbFirst [true; false; true; true; false; false; true; false]);
   ("bit_packing0", packs [false] [] 1 0); ("bit_packing1", packs [true] [] 1 1); ("bit_packing2", packs f0 [240%N] 0 0);
   ("bit_packing3", packs (f0 ++ [true])%list [240%N] 1 1)]%string.

(** ** src/huf.rs:378-540 *)
Section Huffman.
  (** the binary heap of characters, and enough fuel *)
  Context (H : heap (suffix N)) (fuel : nat).
  (** src/huf.rs:385-387; [build] makes the codes from the tree (src/huf.rs:96-114) *)
  Definition huf_abc : res (bintrie N * list (N * bit_arr)) :=
    res_bind (build_tree H [(97, 2); (98, 1); (99, 1)]%N) (fun t => res_map (fun codes => (t, codes)) (enc_from N.eqb t)).
  (** src/huf.rs:426-433; the result of [encode] is ignored, so a missing code would be an error that is not
      noticed: [io_unwrap] is stricter *)
  Definition enc_str (codes : list (N * bit_arr)) (s : text) : res (list N) :=
    run_vec (io_bind (bw_iter (fun c st => io_unwrap (enc_encode N.eqb codes c st)) s (bw_new MsbFirst)) (fun st => bw_pad_and_flush st)).
  (** src/huf.rs:445-448: decode and compare, character by character *)
  Fixpoint dec_str (t : bintrie N) (s : text) (r : breader (list N)) : bool :=
    match s with
    | [] => true
    | c :: s => match dec_next t list_next r with (Ok d, r) => (d =? c)%N && dec_str t s r | _ => false end
    end.
  (** src/huf.rs:436-465 *)
  Definition enc_dec (s : string) : test :=
    and_then huf_abc (fun h => and_then (enc_str (snd h) (txt s)) (fun message => asserts [dec_str (fst h) (txt s) (bit_reader message)])).
  (** [assert_eq!] on trees *)
  Fixpoint tree_eqb (a b : bintrie N) : bool :=
    match a, b with Leaf x, Leaf y => (x =? y)%N | Branch a b, Branch c d => tree_eqb a c && tree_eqb b d | _, _ => false end.
  (** src/huf.rs:472-476, 493-498 *)
  Definition ser_dec (t : bintrie N) (f : bintrie N -> test) : test :=
    and_then (run_vec (ser_trie ser_char t)) (fun bytes =>
    match deser_trie deser_char fuel list_next bytes with Some (r, _) => and_then r f | None => None end).
  (** [HashMap::from] of the codes in src/huf.rs:501-539, and the message *)
  Definition encodes_to (codes : list (N * list bool)) (s : string) (expected : list N) : test :=
    and_then (res_mapM (fun e => res_map (fun a => (fst e, a)) (ba_from_slice (snd e) MsbFirst)) codes) (fun codes =>
    and_then (enc_str (fold_left (fun m e => hm_insert N.eqb (fst e) (snd e) m) codes []) (txt s)) (fun message => asserts [list_eqb N.eqb message expected])).
  Definition code_len (codes : list (N * bit_arr)) (c n : N) : bool := match hm_get N.eqb c codes with Some a => (ba_len a =? n)%N | None => false end.
  (** src/huf.rs:397-402, 405-415: the iterator of the tree *)
  Definition iter_is {A} (eqb : A -> A -> bool) (t : bintrie A) (expected : list (list bool * A)) : test :=
    and_then (bti_new t) (fun it =>
    (fix go it l := match l with
      | [] => asserts [match bti_next it with Err => true | _ => false end]
      | (bits, x) :: l => and_then (bti_next it) (fun r => let '((b, y), it) := r in and_then (assert_ (list_eqb Bool.eqb b bits && eqb y x)) (fun _ => go it l))
      end) it expected).
  Definition huf_tests : list (string * test) :=
    [("builder_is_sane", and_then huf_abc (fun h => asserts [(length (snd h) =? 3)%nat; (length (snd h) =? 3)%nat]));
     ("bintrie_iter1", iter_is N.eqb (Leaf 1%N) [([], 1%N)]);
     ("bintrie_iter2", iter_is N.eqb (Branch (Leaf 0%N) (Leaf 1%N)) [([false], 0%N); ([true], 1%N)]);
     ("code_lens1", and_then huf_abc (fun h => asserts [code_len (snd h) 97 1; code_len (snd h) 98 2; code_len (snd h) 99 2]));
     ("enc_dec1", enc_dec "a"); ("enc_dec2", enc_dec "abcabcaabbcc");
     ("enc_dec3", and_then huf_abc (fun h => ser_dec (fst h) (fun t2 =>
        and_then (enc_str (snd h) (txt "abcabcaabbcc")) (fun message => asserts [dec_str t2 (txt "abcabcaabbcc") (bit_reader message)]))));
     ("ser1", and_then huf_abc (fun h => ser_dec (fst h) (fun t2 => asserts [tree_eqb t2 (fst h)])));
     ("encode1", encodes_to [(97%N, [false; true; false]); (98%N, (f0 ++ [false; true; true])%list); (99%N, [false; false])] "abc" [94; 12]%N);
     ("encode2", encodes_to [(97%N, f0)] "a" [240%N])]%string.
End Huffman.

(** ** src/zip/dict.rs:611-691 *)
Section ZipDict.
  Context (fuel stack : nat).
  (** src/zip/dict.rs:615-629; [fuel] also bounds the reading of the symbols *)
  Definition dict_enc_test (input expected : list N) : test :=
    and_then (run_vec (zip_dict_encode list_next fuel input)) (fun out =>
    and_loop (collect (fun s => deser_u16 _ list_next s) fuel out) (fun symbols => asserts [list_eqb N.eqb symbols expected])).
  (** src/zip/dict.rs:655-666 *)
  Definition dict_dec_test (input : list N) : test :=
    and_then (run_vec (zip_dict_encode list_next fuel input)) (fun out =>
    and_loop (collect (dd_next list_next stack) fuel (zip_dict_decode out)) (fun decoded => asserts [list_eqb N.eqb decoded input])).
  Definition dict_tests : list (string * test) :=
    [("enc0", dict_enc_test [] []); ("enc1", dict_enc_test [1%N] [1%N; ZIP_SPECIAL_EOF]); ("enc2", dict_enc_test [1; 2]%N [1; 2]%N);
     ("enc4", dict_enc_test [1; 2; 1; 3]%N [1; 2; 1; 3]%N); ("enc6", dict_enc_test [1; 2; 1; 2; 1; 2]%N [1; 2; 256; 256]%N);
     ("dec0", dict_dec_test []); ("dec1", dict_dec_test [1%N]); ("dec2", dict_dec_test [1; 2]%N); ("dec4", dict_dec_test [1; 2; 1; 3]%N);
     ("dec6", dict_dec_test [1; 2; 1; 2; 1; 2]%N)]%string.
End ZipDict.

(** ** src/zip/back.rs:709-827 *)
Section ZipBack.
  (** build profile, capacities of the buffer, fuel *)
  Context (p : profile) (caps : nat -> nat) (fuel : nat).
  (** src/zip/back.rs:713-725 *)
  Definition back_enc_test (input : list N) (expected : list symbol) : test :=
    and_then (run_vec (zip_back_encode list_next p caps fuel input)) (fun out =>
    and_then (run_vec (io_iter ser_symbol expected)) (fun out' => asserts [list_eqb N.eqb out out'])).
  (** src/zip/back.rs:774-782 *)
  Definition back_dec_test (input : list N) : test :=
    and_then (run_vec (zip_back_encode list_next p caps fuel input)) (fun out =>
    and_loop (collect (bd_next list_next MAX_RING_BUFFER_SIZE p) fuel (zip_back_decode out)) (fun decoded => asserts [list_eqb N.eqb decoded input])).
  Definition ones (n : nat) : list N := repeat 1%N n.
  Definition no_repeat : list N := ones 8 ++ repeat 2%N 8.
  Definition back_tests : list (string * test) :=
    [("enc0", back_enc_test [] []); ("enc1", back_enc_test [1%N] [Explicit [1%N]]); ("enc2_no_repeat", back_enc_test [1; 2]%N [Explicit [1; 2]%N]);
     ("enc2_repeat", back_enc_test [1; 1]%N [Explicit [1; 1]%N]); ("enc6", back_enc_test (ones 6) [Explicit (ones 6)]);
     ("enc16_repeat", back_enc_test (ones 16) [Explicit (ones 8); LookBack 8 8]); ("enc16_no_repeat", back_enc_test no_repeat [Explicit no_repeat]);
     ("dec0", back_dec_test []); ("dec1", back_dec_test [1%N]); ("dec2_no_repeat", back_dec_test [1; 2]%N); ("dec2_repeat", back_dec_test [1; 1]%N);
     ("dec6", back_dec_test (ones 6)); ("dec16_repeat", back_dec_test (ones 16)); ("dec16_no_repeat", back_dec_test no_repeat)]%string.
End ZipBack.

(** ** src/kmeans.rs:446-581 *)
(** src/kmeans.rs:451-459; the numbers in the tests are far from the limits of i32 *)
Definition pair_dist (a b : Z * Z) : f64 := fsqrt (fadd (fsqr (f64_of_Z (fst a - fst b))) (fsqr (f64_of_Z (snd a - snd b)))).
(** src/kmeans.rs:461-477; division of i64 truncates *)
Definition pair_mean (l : list (Z * Z)) : res (Z * Z) :=
  match l with
  | [] => Err
  | _ => let sum := fold_left (fun s e => (fst s + fst e, snd s + snd e)%Z) l (0, 0)%Z in
         let n := Z.of_nat (length l) in Ok (Z.quot (fst sum) n, Z.quot (snd sum) n)
  end.
Definition pair_point : point (Z * Z) := mkPoint _ (fun a b => Ok (pair_dist a b)) pair_mean Debug.
Definition pair_eqb (a b : Z * Z) : bool := (fst a =? fst b)%Z && (snd a =? snd b)%Z.
Section KmeansTests.
  (** sorting, random numbers, fuel *)
  Context (sorted : list (nat * f64) -> list (nat * f64)) (rng : nat -> N) (fuel vfuel start : nat).
  Definition with_cluster (points : list (Z * Z)) (k : N) (f : clusters (Z * Z) -> list bool) : test :=
    match cluster pair_point sorted rng fuel vfuel points k start with
    | Some r => and_then r (fun c => asserts (f (fst c)))
    | None => None
    end.
  (** src/kmeans.rs:479-489 *)
  Definition centroids_are (c : clusters (Z * Z)) (expected : list (Z * Z)) : list bool :=
    (length (centroids c) =? length expected)%nat :: map (fun e => existsb (pair_eqb e) (centroids c)) expected.
  (** src/kmeans.rs:506-514 *)
  Definition square_centered_at (q : Z * Z) : list (Z * Z) :=
    flat_map (fun i => map (fun j => (fst q + i, snd q + j)%Z) [-1; 0; 1]%Z) [-1; 0; 1]%Z.
  (** src/kmeans.rs:494-499 *)
  Definition all_clusters_test : test :=
    let data := [(0, 0); (1, 1)]%Z in
    with_cluster data 2 (fun c => centroids_are c data ++
      map (fun i => match nth_error (assignment c) i, nth_error (centroids c) i with Some v, Some e => list_eqb pair_eqb v [e] | _, _ => false end) (seq 0 2)).
  (** src/kmeans.rs:517-523 *)
  Definition square1_test : test :=
    with_cluster (square_centered_at (0, 0)%Z) 1 (fun c => centroids_are c [(0, 0)%Z] ++ [match assignment c with v :: _ => (length v =? 9)%nat | [] => false end]).
  (** src/kmeans.rs:526-539 *)
  Definition squares2_test : test :=
    with_cluster (square_centered_at (-100, 0)%Z ++ square_centered_at (100, 0)%Z) 2 (fun c => centroids_are c [(-100, 0); (100, 0)]%Z).
  (** src/kmeans.rs:542-563 *)
  Definition dist1_test : test := asserts [feq (pair_dist (0, 0)%Z (0, 1)%Z) (f64_of_N 1)].
  Definition dist2_test : test := asserts (map (fun q => flt (pair_dist (-11, 0)%Z q) (pair_dist (11, 0)%Z q)) (square_centered_at (-100, 0)%Z)).
  Definition mean1_test : test := asserts [match pair_mean (square_centered_at (-100, 0)%Z) with Ok m => pair_eqb m (-100, 0)%Z | _ => false end].
  (** src/kmeans.rs:566-573 *)
  Definition radii_test : test :=
    with_cluster [(0, 0); (1, 0)]%Z 2 (fun c =>
      map (fun i => match nth_error (graph c) i with Some nb => feq (certainty_radius nb) (fdiv (f64_of_N 1) (f64_of_N 2)) | None => false end) (seq 0 2)).
  (** src/kmeans.rs:576-580 *)
  Definition proper_init_test : test := with_cluster [(1000, 0); (1000, 1); (-1000, 0); (-1000, 1)]%Z 3 (fun _ => []).
  Definition kmeans_tests : list (string * test) :=
    [("all_clusters", all_clusters_test); ("square1", square1_test); ("squares2", squares2_test); ("dist1", dist1_test); ("dist2", dist2_test);
     ("mean1", mean1_test); ("radii", radii_test); ("proper_init_asg", proper_init_test)]%string.
End KmeansTests.

(** ** src/codec/clusterc.rs:299-338 *)
Definition dist_is (a b : rgb N) (d : f64) : test := asserts [feq (rgb_dist a b) d].
Definition cluster_tests (p : profile) : list (string * test) :=
  [("rgb_mean", asserts [match mean (cc_point p) [mkCC (0, 0, 0)%N 1; mkCC (2, 2, 2)%N 1] with
                         | Ok m => rgb_eqb (cc_color m) (1, 1, 1)%N && (cc_count m =? 1)%N | _ => false end]);
   ("rgb_dist0", dist_is (0, 10, 20)%N (0, 10, 20)%N (f64_of_N 0)); ("rgb_dist1", dist_is (0, 0, 0)%N (1, 0, 0)%N (f64_of_N 1));
   ("rgb_dist2", dist_is (0, 0, 0)%N (1, 1, 0)%N (fsqrt (f64_of_N 2))); ("rgb_dist3", dist_is (0, 0, 0)%N (1, 1, 1)%N (fsqrt (f64_of_N 3)))]%string.
