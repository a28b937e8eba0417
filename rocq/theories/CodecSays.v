(** * Model of what the codecs print (src/codec.rs:64-78, src/codec/clusterc.rs, hilbertc.rs, hufc.rs, zipc.rs)

    The encoders of Writers.v and the decoders of Bench.v once more, with the lines that the
    parts print (KmeansSays.v, DictSays.v, BackSays.v, HilbertSays.v, HufSays.v) in order. *)
From Verif Require Import Base Ser Huf Dict Back Img Float HilbertC Kmeans ClusterC Prs Regex Select Bench Says BackSays HilbertSays DictSays DictImgSays HufSays KmeansSays.

(** Where a line comes from *)
Inductive codec_line :=
| FromClustering (l : KmeansSays.line)
| FromDict (l : dict_line)
| FromBack (m : mark)
| FromHilbert (n : notice)   (* and the Huffman decoder, see HilbertSays.v *)
| FromHuffman (c : cry).
(** [eprintln!]; the others are [println!] and [print!] *)
Definition on_stderr (l : codec_line) : bool :=
  match l with FromHuffman _ | FromHilbert SymbolFailed | FromHilbert StreamEnded => true | _ => false end.
(** Printing as part of a codec *)
Definition says_as {M M' S A} (f : M -> M') (m : says M S A) : says M' S A := fun s => let '(o, r) := m s in (map f o, r).

(** [f(cluster(..))?] as in ClusterC.v; [None]: out of fuel, after these lines *)
Definition after_clusters {T} (O : oracles) (P : point T) (points : list T) (n : N) (f : clusters T -> says codec_line writer unit)
    (w : writer) : list codec_line * option (res unit * writer) :=
  let '(o, r) := say_cluster P (or_sort O) (or_rng O) (or_fuel O) (or_vfuel O) points n 0 in
  let o := map FromClustering o in
  match r with
  | None => (o, None)
  | Some (Ok (c, _)) => let '(o', r) := f c w in (o ++ o', Some r)
  | Some Err => (o, Some (Err, w))
  | Some Panic => (o, Some (Panic, w))
  end.
(** src/codec/clusterc.rs:18-53 *)
Definition cluster_colors_says (p : profile) (O : oracles) (ord ord2 : list (rgb N * N) -> list (rgb N * N)) (H : heap (suffix (rgb N)))
    (n : N) (im : img) : writer -> list codec_line * option (res unit * writer) :=
  after_clusters O (cc_point p) (color_counts ord im) n (fun c =>
  says_bind (hush (io_lift (recolor (reduced_colors c) im))) (fun reduced => says_as FromHuffman (hufman_encode_says ord2 H reduced))).
(** src/codec/clusterc.rs:148-166 *)
Definition voronoi_says (p : profile) (O : oracles) (n : N) (im : img) : writer -> list codec_line * option (res unit * writer) :=
  after_clusters O (cp_point p) (pixel_points im) n (fun c =>
  hush (io_bind (ser TU32 (im_w im)) (fun _ =>
        io_bind (ser TU32 (im_h im)) (fun _ =>
        io_bind (ser TUsize n) (fun _ =>
        io_iter (fun e : color_pos * list color_pos => ser_color_pos (fst e)) (cluster_list c)))))).
(** src/codec/hilbertc.rs:405-415 *)
Definition delta_says (p : profile) (scan : scanner)
    (ord : list (signed_color * N) -> list (signed_color * N)) (H : heap (suffix signed_color)) (im : img) : says cry writer unit :=
  says_bind (hush (ser (TPair TU32 TU32) (im_w im, im_h im))) (fun _ =>
  says_bind (hush (io_lift (linearize_rect scan im))) (fun l =>
  says_bind (hush (io_lift (diff_stream p START (map to_rgb l)))) (fun ds =>
  huf_encode_says sc_eqb (ser sc_ty) ord H ds))).
(** An encoder without clustering *)
Definition runs {M} (f : M -> codec_line) (m : says M writer unit) (w : writer) : list codec_line * option (res unit * writer) :=
  let '(o, r) := m w in (map f o, Some r).
(** src/codec.rs:64-70; [nodes]: see DictSays.v *)
Definition encode_says (E : env) (nodes : nat) (c : any_codec) (im : img) : writer -> list codec_line * option (res unit * writer) :=
  match c with
  | ClusterColors n => cluster_colors_says (e_profile E) (e_kmeans E) (e_ord E) (e_ord2 E) (e_heap E) n im
  | VoronoiCluster n => voronoi_says (e_profile E) (e_kmeans E) n im
  | Delta => runs FromHuffman (delta_says (e_profile E) (e_scan E) (e_ord_diff E) (e_heap_diff E) im)
  | Hilbert (RLE d) => runs FromHilbert (hilbert_says (e_scan E) (e_fuel E) (RLE d) im)
  | Hilbert MZip => runs FromDict (hilbert_zip_says (e_scan E) nodes (e_fuel E) im)
  | Hufman => runs FromHuffman (hufman_encode_says (e_ord E) (e_heap E) im)
  | Zip ZDict => runs FromDict (zip_dict_image_says nodes (e_fuel E) im)
  | Zip ZBack => runs FromBack (zip_back_says zip_bytes_next (e_profile E) (e_caps E) (e_fuel E) (zip_bytes im))
  end.
(** src/codec.rs:72-78, on [data.into_iter()]: of the decoders only that of src/codec/hufc.rs prints, which is also that of
    cluster-colors (src/codec/clusterc.rs:55-57) *)
Definition decode_says (E : env) (c : any_codec) (data : list N) : list codec_line * option (res img) :=
  match c with
  | ClusterColors _ | Hufman => let '(o, r) := hufman_says (e_fuel E) list_next data in (map FromHilbert o, r)
  | _ => ([], any_decode E c data)
  end.
