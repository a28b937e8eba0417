(** * C90: what zip-back prints.  Statements only; proofs are in BackSays*.v. *)
From Coq Require Import String.
From Verif Require Import Base Ser SerSpec Dict DictSpec DictProofs Prs Back BackSpec Img CodecSpec CodecZip Says BackSays BackSaysSpec BackSaysTop BackSaysCases.
Close Scope string_scope.
Open Scope list_scope.

(** Printing changes nothing: result and bytes written are those of Back.v, which leaves it out, whatever the input and the writer do. *)
Theorem C90_silent : forall T (next : nextf T N) pr caps fuel s w,
  snd (zip_back_says next pr caps fuel s w) = zip_back_encode next pr caps fuel s w.
Proof. exact back_says_same. Qed.
Print Assumptions C90_silent.
(** The whole output, for every writer: [told], cut short where a symbol is too long or does not fit. *)
Theorem C90_output : forall T (next : nextf T N) s l pr caps fuel, delivers next s l -> caps_ok caps -> (length l < fuel)%nat ->
  exists o, told MAX_RING_BUFFER_SIZE [] [] l o /\ forall w, fst (zip_back_says next pr caps fuel s w) = heard (room w) o.
Proof. exact back_says. Qed.
Print Assumptions C90_output.
(** The announcements are those of the symbols, whatever the capacities. *)
Theorem C90_symbols : forall R h lits rest o, told R h lits rest o ->
  exists syms, parses R h lits rest syms /\ filter is_announcement o = map announcement syms.
Proof. exact told_parses. Qed.
Print Assumptions C90_symbols.
(** Into a vector: if the encoder succeeds the announced lengths add up to that of the input; if it aborts, the last thing
    printed is the first announcement above 32767. *)
Theorem C90_outcome : forall T (next : nextf T N) s l pr caps fuel, delivers next s l -> caps_ok caps -> (length l < fuel)%nat ->
  let o := fst (zip_back_says next pr caps fuel s vec_writer) in
  match run_vec (zip_back_encode next pr caps fuel s) with
  | Ok _ => told MAX_RING_BUFFER_SIZE [] [] l o /\ Forall (fun n => n <= 32767)%N (flat_map announced o)
            /\ fold_right N.add 0%N (flat_map announced o) = N.of_nat (length l)
  | Err => False
  | Panic => exists o1 m n, o = o1 ++ [m] /\ announced m = [n] /\ (32767 < n)%N /\ Forall (fun n => n <= 32767)%N (flat_map announced o1)
             /\ exists o2, told MAX_RING_BUFFER_SIZE [] [] l (o ++ o2)
  end.
Proof. exact back_says_vec. Qed.
Print Assumptions C90_outcome.
(** For an image they add up to 8 bytes of dimensions and 11 bytes per pixel. *)
Theorem C90_image : forall pr caps fuel im out, img_ok im -> caps_ok caps -> (length (zip_input im) < fuel)%nat ->
  run_vec (zip_encode pr caps fuel ZBack im) = Ok out ->
  fold_right N.add 0%N (flat_map announced (fst (zip_back_says zip_bytes_next pr caps fuel (zip_bytes im) vec_writer))) = (8 + 11 * (im_w im * im_h im))%N.
Proof. exact back_says_image. Qed.
Print Assumptions C90_image.

(** Two repetitions: the first is looked at again since eight bytes were at hand, the second reaches the end of the input *)
Example C90_case : delivers list_next says_input says_input /\ caps_ok says_caps /\
  (let '(o, (r, w)) := zip_back_says list_next Debug says_caps 40 says_input vec_writer in
   r = Ok tt
   /\ o = [Searched 0; Searched 0; Searched 0; Searched 1; Extra 8 16; Searched 1; Lit 8; Rep 8; Searched 0; Searched 2; Extra 15 16; Lit 2; Rep 15]%N
   /\ concat (map mark_text o) = txt "?0 ?0 ?0 ?1 Buffered extra data from 8 to 16" ++ [10%N] ++ txt "?1 " ++ [10%N] ++ txt "-8 +8 ?0 ?2 Buffered extra data from 15 to 16"
        ++ [10; 10]%N ++ txt "-2 +15 ")
  /\ fst (zip_back_says list_next Debug says_caps 40 says_input (short_writer 13)) =
     [Searched 0; Searched 0; Searched 0; Searched 1; Extra 8 16; Searched 1; Lit 8; Rep 8]%N.
Proof. exact says_case. Qed.
(** An abort: 32768 bytes without a repetition cannot be announced *)
Example C90_abort_case : exists l o1 m n, delivers list_next l l /\ run_vec (zip_back_encode list_next Debug says_caps (S (length l)) l) = Panic
  /\ fst (zip_back_says list_next Debug says_caps (S (length l)) l vec_writer) = o1 ++ [m] /\ announced m = [n] /\ (32767 < n)%N.
Proof. exact says_abort_case. Qed.
