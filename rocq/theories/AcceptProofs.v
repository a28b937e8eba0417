(** * The data that the image decoders accept: Huffman-coded data. *)
From Coq Require Import ZifyBool ZifyNat ZifyN.
From Verif Require Import Base Ser SerSpec SerProofs Bit BitSpec BitProofs Utils Huf HufSpec HufProofs Dict DictSpec Back BackSpec Img Float HilbertC
  CodecSpec CodecBytes CodecTop CodecFinal CodecZip CodecHilbert Kmeans ClusterC ClusterSpec Prs Select Bench ForeignSpec ForeignKeeps ForeignTop ForeignZip AcceptSpec.

(** ** The header *)
Lemma too_large_dims w h rest : u32_ok w -> u32_ok h -> too_large (le32 w ++ le32 h ++ rest) <-> (2 ^ 63 <= 3 * w * h)%N.
Proof.
  intros Hw Hh. split; [|intros H; exists w, h, rest; auto]. intros (w' & h' & rest' & Hw' & Hh' & H & E).
  assert (D : forall a b r, u32_ok a -> u32_ok b -> deser (TPair TU32 TU32) _ list_next (le32 a ++ le32 b ++ r) = (Ok (a, b), r)).
  { intros a b r Ha Hb. apply dims_deser; auto. rewrite app_assoc. apply yields_list. }
  pose proof (D w h rest Hw Hh) as D1. rewrite E, (D w' h' rest' Hw' Hh') in D1. injection D1 as -> -> _. exact H.
Qed.
Lemma short_not_large data : (length data < 8)%nat -> ~ too_large data.
Proof. intros H (w & h & rest & _ & _ & _ & ->). cbn in H. lia. Qed.

(** What [create_image_buffer_standard] makes of any bytes *)
Lemma create_cases data : u8s data ->
  ((length data < 8)%nat /\ exists s, create_image_buffer_standard list_next data = (Err, s) /\ deser (TPair TU32 TU32) _ list_next data = (Err, s))
  \/ (too_large data /\ exists w h s, create_image_buffer_standard list_next data = (Panic, s) /\ deser (TPair TU32 TU32) _ list_next data = (Ok (w, h), s) /\ buffer_new w h = Panic)
  \/ exists w h body, buffer_fits w h /\ data = le32 w ++ le32 h ++ body /\ u8s body /\ ~ too_large data
     /\ deser (TPair TU32 TU32) _ list_next data = (Ok (w, h), body)
     /\ buffer_new w h = Ok (repeat black (N.to_nat (w * h)))
     /\ create_image_buffer_standard list_next data = (Ok (w, h, repeat black (N.to_nat (w * h))), body).
Proof.
  intros HF. pose proof (header_cases data HF) as H. unfold create_image_buffer_standard, rd_bind.
  destruct (deser (TPair TU32 TU32) _ list_next data) as [[[w h]| |] s] eqn:E; [|left; eauto|easy].
  right. destruct H as (Hw & Hh & Hd). cbn [fst snd]. unfold rd_lift, buffer_new. destruct (N.ltb_spec (3 * w * h) (2 ^ 63)) as [B|B].
  - right. exists w, h, s. split; [split; auto|]. split; [exact Hd|]. split.
    + apply dims_list in E; [apply E|exact HF].
    + split; [rewrite Hd, too_large_dims by auto; lia|]. apply N.ltb_lt in B. rewrite B. auto.
  - left. split; [exists w, h, s; auto|]. exists w, h, s. destruct (N.ltb_spec (3 * w * h) (2 ^ 63)); [lia|]. auto.
Qed.

(** ** Trees *)
Lemma deser_trie_total {A} (P : A -> Prop) fmt (da : deserializer A) : deser_ok P fmt da -> forall fuel data, u8s data -> (length data < fuel)%nat ->
  exists r s, deser_trie da fuel list_next data = Some (r, s) /\ r <> Panic.
Proof.
  intros Hd. assert (T : forall fuel data, u8s data -> (length data < fuel)%nat -> deser_trie da fuel list_next data <> None).
  { induction fuel as [|fuel IH]; intros data HF HL; [lia|]. cbn [deser_trie]. unfold deser_u8. destruct data as [|b data]; cbn [list_next]; [discriminate|].
    apply Forall_cons_iff in HF as [_ HF]. cbn [length] in HL. destruct b as [|[p|p|]]; try discriminate.
    - destruct (da _ list_next data) as [[v| |] s]; discriminate.
    - pose proof (IH data HF ltac:(lia)) as H1. destruct (deser_trie da fuel list_next data) as [[[l| |] s]|] eqn:E; try discriminate; [|contradiction].
      destruct (deser_trie_canon Hd _ (list_byte_source HF) E) as (_ & bs & _ & Hy). apply yields_list_inv in Hy. subst data.
      apply Forall_app in HF as [_ HF]. rewrite app_length in HL. pose proof (IH s HF ltac:(lia)) as H2.
      destruct (deser_trie da fuel list_next s) as [[[r| |] s2]|]; try discriminate. contradiction. }
  intros fuel data HF HL. specialize (T fuel data HF HL). pose proof (fun s => @deser_trie_nopanic _ _ _ _ Hd fuel _ list_next data s (list_byte_source HF)) as NP.
  destruct (deser_trie da fuel list_next data) as [[r s]|] eqn:E; [|contradiction]. exists r, s. split; [reflexivity|]. intros ->. now apply (NP s).
Qed.
(** What the tree reader makes of any bytes *)
Lemma tree_cases u fuel data : u8s data -> (length data < fuel)%nat ->
  (exists t hdr body, data = hdr ++ body /\ u8s body /\ tree_bytes u t hdr /\ deser_trie (deser u) fuel list_next data = Some (Ok t, body))
  \/ ((forall t hdr body, tree_bytes u t hdr -> data <> hdr ++ body) /\ exists s, deser_trie (deser u) fuel list_next data = Some (Err, s)).
Proof.
  intros HF HL. destruct (deser_trie_total _ _ _ (deser_ty_ok u) fuel data HF HL) as (r & s & E & NP). destruct r as [t| |]; [left|right|congruence].
  - destruct (deser_trie_canon (deser_ty_ok u) _ (list_byte_source HF) E) as (H1 & bs & H2 & H3). apply yields_list_inv in H3.
    exists t, bs, s. split; [exact H3|]. split; [subst data; apply Forall_app in HF; apply HF|]. split; [split; auto|exact E].
  - split; [|eauto]. intros t hdr body [H1 H2] ->.
    assert (D : exists f0, (fuel <= f0)%nat /\ (depth t <= f0)%nat) by (exists (fuel + depth t)%nat; lia). destruct D as (f0 & D1 & D2).
    pose proof (@deser_trie_rt _ _ _ _ (deser_ty_ok u) t hdr f0 H1 H2 D2 _ list_next (hdr ++ body) body (yields_list hdr body)) as G.
    assert (M : forall f s0 x, deser_trie (deser u) f list_next s0 = Some x -> deser_trie (deser u) (f + (f0 - fuel)) list_next s0 = Some x).
    { clear. induction f as [|f IH]; intros s0 x H; [discriminate|]. cbn [deser_trie Nat.add] in *. destruct (deser_u8 _ list_next s0) as [[b| |] s1]; auto.
      destruct b as [|[p|p|]]; auto. destruct (deser_trie (deser u) f list_next s1) as [[l s2]|] eqn:E1; [|discriminate]. rewrite (IH _ _ E1).
      destruct l as [l| |]; auto. destruct (deser_trie (deser u) f list_next s2) as [[r s3]|] eqn:E2; [|discriminate]. now rewrite (IH _ _ E2). }
    apply M in E. replace (fuel + (f0 - fuel))%nat with f0 in E by lia. rewrite E in G. discriminate.
Qed.
(** A tree and its serialized form determine each other. *)
Lemma tree_unique u t t' hdr hdr' body body' : tree_bytes u t hdr -> tree_bytes u t' hdr' -> hdr ++ body = hdr' ++ body' -> t = t' /\ hdr = hdr' /\ body = body'.
Proof.
  intros [H1 H2] [H1' H2'] E. set (f := (depth t + depth t')%nat).
  pose proof (@deser_trie_rt _ _ _ _ (deser_ty_ok u) t hdr f H1 H2 ltac:(unfold f; lia) _ list_next (hdr ++ body) body (yields_list hdr body)) as G.
  pose proof (@deser_trie_rt _ _ _ _ (deser_ty_ok u) t' hdr' f H1' H2' ltac:(unfold f; lia) _ list_next (hdr' ++ body') body' (yields_list hdr' body')) as G'.
  rewrite E in G. rewrite G in G'. injection G' as <- <-. split; [reflexivity|]. split; [congruence|reflexivity].
Qed.

(** ** Symbols *)
Lemma lookup_cases {S A} (next : nextf S bool) (t : bintrie A) : forall s bits, yields_all next s bits ->
  (exists code x rest s', path t code x /\ bits = code ++ rest /\ trie_lookup t next s = (Ok x, s') /\ yields_all next s' rest)
  \/ (no_symbol t bits /\ exists s', trie_lookup t next s = (Err, s')).
Proof.
  induction t as [v|l IHl r IHr]; intros s bits Hy; cbn [trie_lookup].
  - left. exists [], v, bits, s. split; [constructor|]. auto.
  - destruct Hy as (s1 & s2 & Hy & Hn). destruct bits as [|b bits].
    + inversion Hy; subst. rewrite Hn. right. split; [|eauto]. intros code x rest Hp. inversion Hp; subst; discriminate.
    + apply yields_cons_inv in Hy as (s3 & E & Hy). rewrite E. assert (Ha : yields_all next s3 bits) by (exists s1, s2; auto). destruct b.
      * destruct (IHr _ _ Ha) as [(code & x & rest & s' & H1 & H2 & H3 & H4)|[H1 H2]].
        -- left. exists (true :: code), x, rest, s'. split; [now constructor|]. split; [now rewrite H2|auto].
        -- right. split; [|exact H2]. intros code x rest Hp E2. inversion Hp; subst; try discriminate. injection E2 as ->. now apply (H1 bits0 x rest).
      * destruct (IHl _ _ Ha) as [(code & x & rest & s' & H1 & H2 & H3 & H4)|[H1 H2]].
        -- left. exists (false :: code), x, rest, s'. split; [now constructor|]. split; [now rewrite H2|auto].
        -- right. split; [|exact H2]. intros code x rest Hp E2. inversion Hp; subst; try discriminate. injection E2 as ->. now apply (H1 bits0 x rest).
Qed.
Lemma prefix_cases {A} (a : list A) : forall b c d, a ++ b = c ++ d -> prefix a c \/ prefix c a.
Proof.
  induction a as [|x a IH]; intros b c d E; [left; exists c; reflexivity|]. destruct c as [|y c]; [right; exists (x :: a); reflexivity|].
  injection E as <- E. destruct (IH _ _ _ E) as [[r E2]|[r E2]]; [left|right]; exists r; rewrite E2; reflexivity.
Qed.
Lemma symbol_unique {A} (t : bintrie A) c x r c' x' r' : path t c x -> path t c' x' -> c ++ r = c' ++ r' -> c = c' /\ x = x' /\ r = r'.
Proof.
  intros H1 H2 E. destruct (prefix_cases _ _ _ _ E) as [H|H].
  - destruct (path_prefix H1 H2 H) as [<- <-]. apply app_inv_head in E. auto.
  - destruct (path_prefix H2 H1 H) as [<- <-]. apply app_inv_head in E. auto.
Qed.
Lemma symbols_cases {S A} (next : nextf S bool) (t : bintrie A) n : forall s bits acc, yields_all next s bits ->
  (exists items rest s', spells t bits items rest /\ length items = n /\ rd_times (trie_lookup t next) n acc s = (Ok (acc ++ items), s'))
  \/ ((forall items rest, length items = n -> ~ spells t bits items rest) /\ exists s', rd_times (trie_lookup t next) n acc s = (Err, s')).
Proof.
  induction n as [|n IH]; intros s bits acc Hy; cbn [rd_times].
  - left. exists [], bits, s. split; [exists []; auto|]. split; [reflexivity|]. now rewrite app_nil_r.
  - unfold rd_bind. destruct (lookup_cases next t s bits Hy) as [(code & x & rest & s' & H1 & -> & -> & H4)|[H1 [s' ->]]].
    + destruct (IH s' rest (acc ++ [x]) H4) as [(items & rest' & s2 & (codes & F & ->) & L & R)|[H [s2 R]]].
      * left. exists (x :: items), rest', s2. split; [exists (code :: codes); split; [now constructor|cbn [concat]; now rewrite app_assoc]|].
        split; [cbn; now rewrite L|]. rewrite R. now rewrite <- app_assoc.
      * right. split; [|eauto]. intros items rest' L (codes & F & E). destruct F as [|c y codes items Hc F]; [discriminate|].
        cbn [concat] in E. rewrite <- app_assoc in E. destruct (symbol_unique t _ _ _ _ _ _ H1 Hc E) as (<- & <- & E').
        apply (H items rest'); [cbn in L; lia|]. exists codes. auto.
    + right. split; [|eauto]. intros items rest' L (codes & F & E). destruct F as [|c y codes items Hc F]; [discriminate|].
      cbn [concat] in E. rewrite <- app_assoc in E. exact (H1 c y _ Hc E).
Qed.
Lemma spells_unique {A} (t : bintrie A) : forall a b bits ra rb, spells t bits a ra -> spells t bits b rb -> length a = length b -> a = b.
Proof.
  intros a b bits ra rb (ca & Fa & ->) (cb & Fb & E). revert b cb Fb E. induction Fa as [|c x ca a Hc Fa IH]; intros b cb Fb E L.
  - destruct b; [reflexivity|discriminate].
  - destruct Fb as [|c' y cb b Hc' Fb]; [discriminate|]. cbn [concat] in E. rewrite <- !app_assoc in E.
    destruct (symbol_unique t _ _ _ _ _ _ Hc Hc' E) as (_ & <- & E'). f_equal. apply (IH _ _ Fb E'). cbn in L. lia.
Qed.
Lemma bits_nopanic (st : breader (list N)) : fst (br_next list_next MsbFirst st) <> Panic.
Proof.
  unfold br_next. destruct (br_buf st); [|discriminate]. destruct (br_done st); [discriminate|]. destruct (br_src st) as [|n l]; cbn [list_next]; [discriminate|].
  destruct (bit_array n MsbFirst); discriminate.
Qed.
Lemma lookup_nopanic {A} (t : bintrie A) : forall st, fst (dec_next t list_next st) <> Panic.
Proof.
  unfold dec_next. induction t as [v|l IHl r IHr]; intros st; cbn [trie_lookup]; [discriminate|].
  pose proof (bits_nopanic st). destruct (br_next list_next MsbFirst st) as [[[|]| |] s]; cbn in *; auto; congruence.
Qed.

(** ** hufman *)
Theorem hufman_accepts : forall data fuel, Forall u8_ok data -> (length data < fuel)%nat ->
  exists got, hufman_decode fuel list_next data = Some got
  /\ (forall im, got = Ok im <-> hufman_file im data) /\ (got = Panic <-> too_large data).
Proof.
  intros data fuel HF HL. unfold hufman_decode.
  assert (NF : forall im, hufman_file im data -> (8 <= length data)%nat /\ ~ too_large data).
  { intros im (Hi & _ & t & hdr & body & rest & -> & _). split; [rewrite app_length; cbn; lia|]. unfold dims. rewrite <- app_assoc.
    destruct Hi as (Hw & Hh & H3 & _). rewrite too_large_dims by auto. lia. }
  destruct (create_cases data HF) as [[H1 (s & H2 & _)]|[[H1 (w & h & s & H2 & _)]|(w & h & body & HB & Hd & Hb & Hn & _ & _ & ->)]].
  - rewrite H2. exists Err. split; [reflexivity|]. split.
    + intros im. split; [discriminate|]. intros G. apply NF in G. lia.
    + split; [discriminate|]. intros G. now apply short_not_large in G.
  - rewrite H2. exists Panic. split; [reflexivity|]. split; [|tauto]. intros im. split; [discriminate|]. intros G. now apply NF in G.
  - unfold huf_decode_all. pose proof HB as (Hw & Hh & H3).
    assert (DD : forall im r, img_ok im -> data = dims im ++ r -> im_w im = w /\ im_h im = h /\ r = body).
    { intros im r (Iw & Ih & _) E. rewrite Hd in E. unfold dims in E. rewrite <- app_assoc in E.
      assert (D : forall a b r0, u32_ok a -> u32_ok b -> deser (TPair TU32 TU32) _ list_next (le32 a ++ le32 b ++ r0) = (Ok (a, b), r0)).
      { intros a b r0 Ha Hb'. apply dims_deser; auto. rewrite app_assoc. apply yields_list. }
      pose proof (D w h body Hw Hh) as D1. rewrite E, (D _ _ r Iw Ih) in D1. injection D1 as -> -> ->. auto. }
    destruct (tree_cases (TRgb TU8) fuel body Hb) as [(t & hdr & rest & -> & Hr & HT & ->)|[HT [s ->]]].
    { rewrite Hd in HL. cbn in HL. lia. }
    + rewrite rd_repeat_times. pose proof (br_all MsbFirst (list_all rest)) as Y.
      pose proof (symbols_cases (br_next list_next MsbFirst) t (N.to_nat (w * h)) (bit_reader rest) _ [] Y) as C. change (trie_lookup t (br_next list_next MsbFirst)) with (dec_next t list_next) in C.
      assert (Huf : forall im, hufman_file im data -> exists r, im_w im = w /\ im_h im = h /\ img_ok im /\ is_opaque im /\ spells t (bytes_bits MsbFirst rest) (map to_rgb (im_px im)) r).
      { intros im (Hi & Ho & t' & hdr' & body' & r & E & HT' & Hs). destruct (DD im _ Hi E) as (E1 & E2 & E3).
        destruct (tree_unique _ _ _ _ _ _ _ HT' HT E3) as (-> & -> & ->). exists r. auto. }
      destruct C as [(items & r & s' & Hs & Hl & ->)|[Hs [s' ->]]].
      * cbn [app]. exists (Ok (from_rgb w h items)). split; [reflexivity|]. split; [|split; [discriminate|contradiction]].
        assert (HI : Forall rgb_ok items).
        { destruct Hs as (codes & F & _). clear - F HT. destruct HT as [HT _]. induction F as [|c x codes items Hp F IH]; constructor; auto. apply rgb_wf.
          assert (In x (leaves t)) by (apply leaves_path; eauto). rewrite Forall_forall in HT. auto. }
        assert (HN : N.of_nat (length items) = (w * h)%N) by (rewrite Hl; apply N2Nat.id).
        destruct (made_ok w h items Hw Hh H3 HN HI) as [Hi Ho].
        assert (EP : map to_rgb (im_px (from_rgb w h items)) = items) by (cbn [from_rgb im_px]; rewrite map_map; apply map_id).
        intros im. split.
        -- intros [= <-]. split; [exact Hi|]. split; [exact Ho|]. exists t, hdr, rest, r. rewrite EP. split; [|split; [exact HT|exact Hs]].
           rewrite Hd. unfold dims. cbn [from_rgb im_w im_h]. now rewrite <- app_assoc.
        -- intros G. destruct (Huf im G) as (r' & <- & <- & Gi & Go & Gs). f_equal.
           assert (E : map to_rgb (im_px im) = items).
           { apply (spells_unique t _ _ _ _ _ Gs Hs). rewrite map_length, Hl. destruct Gi as (_ & _ & _ & GL & _). rewrite <- GL. now rewrite Nat2N.id. }
           unfold from_rgb. rewrite <- E, map_map. transitivity (opaque im); [reflexivity|now apply opaque_id].
      * exists Err. pose proof (lookup_nopanic t s') as NP. split; [destruct (dec_next t list_next s') as [[?| |] ?]; cbn in NP; congruence|].
        split; [|split; [discriminate|contradiction]]. intros im. split; [discriminate|]. intros G. exfalso.
        destruct (Huf im G) as (r' & E1 & E2 & (_ & _ & _ & GL & _) & Go & Gs). apply (Hs _ _) in Gs; [exact Gs|]. rewrite map_length, <- E1, <- E2, <- GL. now rewrite Nat2N.id.
    + exists Err. split; [reflexivity|]. split; [|split; [discriminate|contradiction]]. intros im. split; [discriminate|].
      intros (Hi & Ho & t' & hdr' & body' & r & E & HT' & Hs). destruct (DD im _ Hi E) as (_ & _ & E3). exfalso. exact (HT _ _ _ HT' (eq_sym E3)).
Qed.
