(** * C79: the worked examples of README.md and the repetitions that the zip codecs find. *)
From Verif Require Import Base Ser SerSpec SerProofs Bit Dict DictSpec DictProofs Back BackSpec ReadmeProofs.

(** C79: zip-dict on a repeated pair of bytes (README.md:61-70 has three of them): each new code stands for twice as much. *)
Theorem C79_dict_pairs : forall T (next : nextf T N) s a b k fuel, let l := concat (repeat [a; b] (2 ^ S k - 1)) in
  delivers next s l -> u8_ok a -> u8_ok b -> (N.of_nat k < 65279)%N -> (length l < fuel)%nat ->
  run_vec (zip_dict_encode next fuel s)
  = Ok (words (a :: b :: flat_map (fun j => [N.of_nat (256 + j); N.of_nat (256 + j)]) (seq 0 k))).
Proof. exact dict_pairs. Qed.
Print Assumptions C79_dict_pairs.
(** zip-back copies the input if no six bytes occur twice without overlap. *)
Theorem C79_back_literal : forall T (next : nextf T N) s l pr caps fuel, delivers next s l -> caps_ok caps -> (length l < fuel)%nat ->
  l <> [] -> (N.of_nat (length l) <= 32767)%N ->
  (forall i j, (i + 6 <= j)%nat -> (j + 6 <= length l)%nat -> firstn 6 (skipn i l) <> firstn 6 (skipn j l)) ->
  run_vec (zip_back_encode next pr caps fuel s) = Ok (le16 (N.of_nat (length l)) ++ l).
Proof. exact back_one_literal. Qed.
Print Assumptions C79_back_literal.
(** So the worked example of README.md:72-90 is not what the program does, although its decoder would accept it. *)
Theorem C79_back_example_refuted : exists l syms, text [] syms = l
  /\ syms = [Explicit [1; 1; 2; 2]; LookBack 2 3; LookBack 2 6]%N /\ l = [1; 1; 2; 2; 1; 2; 1; 1]%N
  /\ (forall pr, yields_all (bd_next list_next MAX_RING_BUFFER_SIZE pr) (zip_back_decode (concat (map symbol_bytes syms))) l)
  /\ (forall T (next : nextf T N) s pr caps fuel, delivers next s l -> caps_ok caps -> (length l < fuel)%nat ->
      run_vec (zip_back_encode next pr caps fuel s) <> Ok (concat (map symbol_bytes syms))).
Proof. exact readme_back. Qed.
Print Assumptions C79_back_example_refuted.
(** Three copies of six bytes or more are always noticed; *)
Theorem C79_back_triple : forall T (next : nextf T N) s u pr caps fuel,
  delivers next s (u ++ u ++ u) -> caps_ok caps -> (length (u ++ u ++ u) < fuel)%nat -> (6 <= N.of_nat (length u) <= 32767)%N ->
  exists syms, text [] syms = u ++ u ++ u /\ (exists len back, In (LookBack len back) syms /\ (6 <= len)%N)
  /\ forall out, run_vec (zip_back_encode next pr caps fuel s) = Ok out -> out = concat (map symbol_bytes syms).
Proof. exact back_triple. Qed.
Print Assumptions C79_back_triple.
(** two copies may not be, even if they are long: literals are only tested at the powers of two. *)
Theorem C79_back_twice_refuted : exists u, length u = 129%nat /\ Forall u8_ok u
  /\ forall T (next : nextf T N) s pr caps fuel, delivers next s (u ++ u) -> caps_ok caps -> (length (u ++ u) < fuel)%nat ->
     run_vec (zip_back_encode next pr caps fuel s) = Ok (symbol_bytes (Explicit (u ++ u))).
Proof. exact back_twice. Qed.
Print Assumptions C79_back_twice_refuted.

Example C79_case : delivers list_next (concat (repeat [1; 2] (2 ^ 2 - 1)))%N [1; 2; 1; 2; 1; 2]%N
  /\ run_vec (zip_dict_encode list_next 7 [1; 2; 1; 2; 1; 2]%N) = Ok [1; 0; 2; 0; 0; 1; 0; 1]%N
  /\ run_vec (zip_dict_encode list_next 31 (concat (repeat [7; 7] 15)))%N = Ok (words [7; 7; 256; 256; 257; 257; 258; 258]%N)
  /\ run_vec (zip_back_encode list_next Debug (fun _ => 16%nat) 9 [1; 1; 2; 2; 1; 2; 1; 1]%N) = Ok [8; 0; 1; 1; 2; 2; 1; 2; 1; 1]%N
  /\ (let u := [1; 2; 3; 4; 5; 6]%N in run_vec (zip_back_encode list_next Debug (fun _ => 16%nat) 19 (u ++ u ++ u))
      = Ok (concat (map symbol_bytes [Explicit [1; 2; 3; 4; 5; 6; 1; 2]; LookBack 6 6; Explicit [3; 4; 5; 6]]))%N).
Proof.
  split; [apply list_delivers|]. split; [vm_compute; reflexivity|]. split; [vm_compute; reflexivity|]. split; vm_compute; reflexivity.
Qed.
