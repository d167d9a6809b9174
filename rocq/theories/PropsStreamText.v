(** C88: the model of src/buffer is the meaning of its text.  The text is BufferText.v, written by tools/rust_text.py from /repo/src/buffer; its
    meaning is that of Rust.v.  Each theorem says: with enough fuel, and whatever more there is, the call of the function in the text ends
    exactly as the function of the model, and leaves in the variables exactly what the model leaves. *)
From Coq Require Import List Bool Arith String Lia.
From Verif Require Import Base Combinators Buffer Stream Rust RustText BufferText TextModel TextProofs TextLoop TextWp BufferTextModel BufferTextProofs
  BufferTextSource BufferTextParse BufferTextRead BufferTextInst.
Import ListNotations.

Set Implicit Arguments.
Local Open Scope string_scope.
Local Open Scope list_scope.
Local Open Scope nat_scope.

(** [g n] is the end of the text with fuel [n], and the variables then.  [r] is what the model says: a value written by [wv] with the variables
    [ws], a panic, or undefined behaviour.  ([Stuck] is not an end; where the model can be stuck the theorems exclude it.) *)
Definition meets {I O A : Type} (g : nat -> out I O (value I O) * list (value I O)) (r : run A) (wv : A -> value I O) (ws : A -> list (value I O)) : Prop :=
  exists n, forall m, n <= m ->
    match r with
    | Done a => g m = (Val (wv a), ws a)
    | Panicked => fst (g m) = Panicking
    | Undefined => fst (g m) = Wrong
    | Stuck => True
    end.

Section StreamText.
  Context {St B0 T E I : Type}.
  Notation thing := (stream_thing St B0 T E).
  Notation value := (value I thing).
  Variable verbose : bool.
  Variable eqb : I -> I -> bool.
  Variable ds : data_source St I.
  Variable next : St -> option I * St.
  Variable ops0 : buffer_ops I B0.
  Variable p : parser I T E.
  Variable cap0 : nat.
  Variable extra alloc : nat -> nat.
  Variable starts : thing.
  Variable acts : thing -> caction value value thing.
  Notation says ty f vs s r wv ws :=
    (meets (fun n => @call_in I thing (buffer_text verbose) (outside_stream ds next ops0 p) eqb (new_vectors cap0 extra alloc) starts acts n ty f vs s) r wv ws).

  Lemma meets_wp {A : Type} ty f vs s (r : run A) (wv : A -> value) (ws : A -> list value) :
    wp (fun m => @apply I thing (out I thing value * list value) (buffer_text verbose) (outside_stream ds next ops0 p) eqb (new_vectors cap0 extra alloc)
                   starts acts m (inl (VFn ty f)) vs) s (fits r wv ws) ->
    says ty f vs s r wv ws.
  Proof.
    intros (o & s1 & [n H] & HQ). exists n. intros m Hm. unfold call_in. rewrite (H m Hm).
    destruct r; cbn [fits fst] in *; [destruct HQ as [-> ->]; reflexivity|exact HQ|exact HQ|exact HQ].
  Qed.

  (** * src/buffer/slice.rs *)

  Theorem C88_slice_new b :
    says "SliceStream" "new" [VSlice b] [] (Done (slice_new b)) w_slices (fun _ => []).
  Proof. apply meets_wp. apply text_slice_new_says. Qed.
  Theorem C88_into_stream b :
    says "slice" "into_stream" [VSlice b] [] (Done (slice_new b)) w_slices (fun _ => []).
  Proof. apply meets_wp. apply text_into_stream_says. Qed.
  Theorem C88_slice_len s :
    says "SliceStream" "len" [VRef 0 []] [w_slices s] (slice_len s) VNat (fun _ => [w_slices s]).
  Proof. apply meets_wp. apply text_slice_len_says. Qed.
  Theorem C88_slice_is_empty s :
    says "SliceStream" "is_empty" [VRef 0 []] [w_slices s] (slice_is_empty s) VBool (fun _ => [w_slices s]).
  Proof. apply meets_wp. apply text_slice_is_empty_says. Qed.
  Theorem C88_slice_parse s :
    slice_parse p s <> Stuck ->
    says "SliceStream" "parse" [VRef 0 []; VObj KParser] [w_slices s] (slice_parse p s)
      (fun x => w_sres w_kvalue w_kerr (snd x)) (fun x => [w_slices (fst x)]).
  Proof. intros H0. apply meets_wp. apply text_slice_parse_says; assumption. Qed.

  (** * src/buffer/data_source.rs *)

  Theorem C88_read_new s :
    says "ReadDataSource" "new" [w_ksource s] [] (Done (w_ksource s)) (fun v => VCon "ReadDataSource" "" [v]) (fun _ => []).
  Proof. apply meets_wp. apply text_read_new_says. Qed.
  Theorem C88_read_into_inner s :
    says "ReadDataSource" "into_inner" [VCon "ReadDataSource" "" [w_ksource s]] [] (Done s) w_ksource (fun _ => []).
  Proof. apply meets_wp. apply text_read_into_inner_says. Qed.
  Theorem C88_read_source s m cap more count a n :
    says "ReadDataSource" "read" [VRef 0 []; VPart 1 [] a n] [VCon "ReadDataSource" "" [w_ksource s]; VMem m cap more count]
      (Done (ds_read (read_data_source (ds_read ds)) s n)) (fun r => w_io VNat (snd r))
      (fun r => [VCon "ReadDataSource" "" [w_ksource (fst (fst r))]; VMem (firstn a m ++ overwrite (snd (fst r)) (skipn a m)) cap more count]).
  Proof. apply meets_wp. apply text_read_source_says. Qed.
  Theorem C88_iterator_new s :
    says "IteratorDataSource" "new" [w_ksource s] [] (Done (w_ksource s)) (fun v => VCon "IteratorDataSource" "" [v]) (fun _ => []).
  Proof. apply meets_wp. apply text_iterator_new_says. Qed.
  Theorem C88_iterator_into_inner s :
    says "IteratorDataSource" "into_inner" [VCon "IteratorDataSource" "" [w_ksource s]] [] (Done s) w_ksource (fun _ => []).
  Proof. apply meets_wp. apply text_iterator_into_inner_says. Qed.
  Theorem C88_iterator_source s m cap more count a n :
    a + n <= List.length m ->
    says "IteratorDataSource" "read" [VRef 0 []; VPart 1 [] a n] [VCon "IteratorDataSource" "" [w_ksource s]; VMem m cap more count]
      (Done (ds_read (iter_data_source next) s n)) (fun r => w_io VNat (snd r))
      (fun r => [VCon "IteratorDataSource" "" [w_ksource (fst (fst r))]; VMem (firstn a m ++ overwrite (snd (fst r)) (skipn a m)) cap more count]).
  Proof. intros H0. apply meets_wp. apply text_iterator_source_says; assumption. Qed.

  (** * src/buffer/buffer.rs, FixedSizeBuffer *)

  Theorem C88_fixed_new :
    says "FixedSizeBuffer" "new" [] [] (fixed_with_size (6 * 1024)) (w_fixed (6 * 1024 + extra (6 * 1024)) alloc 0) (fun _ => []).
  Proof. apply meets_wp. apply text_fixed_new_says. Qed.
  Theorem C88_fixed_with_size n :
    says "FixedSizeBuffer" "with_size" [VNat n] [] (fixed_with_size n) (w_fixed (n + extra n) alloc 0) (fun _ => []).
  Proof. apply meets_wp. apply text_fixed_with_size_says. Qed.
  Theorem C88_fixed_deref cap more count b :
    says "FixedSizeBuffer" "deref" [VRef 0 []] [w_fixed cap more count b] (fixed_deref b) VSlice (fun _ => [w_fixed cap more count b]).
  Proof. apply meets_wp. apply text_fixed_deref_says. Qed.
  Theorem C88_fixed_deref_mut cap more count b :
    says "FixedSizeBuffer" "deref_mut" [VRef 0 []] [w_fixed cap more count b]
      (let! _ := assert ((f_used b <=? f_populated b) && (f_populated b <=? List.length (f_mem b))) in Done b)
      (fun b => VPart 0 [Fname "buffer"] (f_used b) (f_populated b - f_used b)) (fun b => [w_fixed cap more count b]).
  Proof. apply meets_wp. apply text_fixed_deref_mut_says. Qed.
  Theorem C88_fixed_fill cap more count b s :
    says "FixedSizeBuffer" "fill" [VRef 0 []; VRef 1 []] [w_fixed cap more count b; w_ksource s] (fixed_fill ds b s)
      (fun x => w_io VNat (snd x)) (fun x => [w_fixed cap more count (fst (fst x)); w_ksource (snd (fst x))]).
  Proof. apply meets_wp. apply text_fixed_fill_says. Qed.
  Theorem C88_fixed_request_space cap more count b k :
    says "FixedSizeBuffer" "request_space" [VRef 0 []; VNat k] [w_fixed cap more count b] (fixed_request_space b k) (fun _ => VUnit) (fun b => [w_fixed cap more count b]).
  Proof. apply meets_wp. apply text_fixed_request_says. Qed.
  Theorem C88_fixed_consume cap more count b k :
    says "FixedSizeBuffer" "consume" [VRef 0 []; VNat k] [w_fixed cap more count b] (fixed_consume b k) (fun _ => VUnit) (fun b => [w_fixed cap more count b]).
  Proof. apply meets_wp. apply text_fixed_consume_says. Qed.
  Theorem C88_fixed_len cap more count b :
    says "FixedSizeBuffer" "len" [VRef 0 []] [w_fixed cap more count b] (fixed_len b) VNat (fun _ => [w_fixed cap more count b]).
  Proof. apply meets_wp. apply text_fixed_len_says. Qed.
  Theorem C88_fixed_capacity cap more count b :
    says "FixedSizeBuffer" "capacity" [VRef 0 []] [w_fixed cap more count b] (Done (fixed_capacity b)) VNat (fun _ => [w_fixed cap more count b]).
  Proof. apply meets_wp. apply text_fixed_capacity_says. Qed.

  (** * src/buffer/buffer.rs, GrowingBuffer *)

  Theorem C88_growing_new :
    says "GrowingBuffer" "new" [] [] (Done (growing_with_limit cap0 alloc 0)) w_growing (fun _ => []).
  Proof. apply meets_wp. apply text_growing_new_says. Qed.
  Theorem C88_growing_with_limit n :
    says "GrowingBuffer" "with_limit" [VNat n] [] (Done (growing_with_limit cap0 alloc n)) w_growing (fun _ => []).
  Proof. apply meets_wp. apply text_growing_with_limit_says. Qed.
  Theorem C88_growing_deref b :
    says "GrowingBuffer" "deref" [VRef 0 []] [w_growing b] (growing_deref b) VSlice (fun _ => [w_growing b]).
  Proof. apply meets_wp. apply text_growing_deref_says. Qed.
  Theorem C88_growing_deref_mut b :
    says "GrowingBuffer" "deref_mut" [VRef 0 []] [w_growing b]
      (let! _ := assert ((g_used b <=? g_populated b) && (g_populated b <=? List.length (g_mem b))) in Done b)
      (fun b => VPart 0 [Fname "buffer"] (g_used b) (g_populated b - g_used b)) (fun b => [w_growing b]).
  Proof. apply meets_wp. apply text_growing_deref_mut_says. Qed.
  Theorem C88_growing_fill b s :
    says "GrowingBuffer" "fill" [VRef 0 []; VRef 1 []] [w_growing b; w_ksource s] (growing_fill ds b s)
      (fun x => w_io VNat (snd x)) (fun x => [w_growing (fst (fst x)); w_ksource (snd (fst x))]).
  Proof. apply meets_wp. apply text_growing_fill_says. Qed.
  Theorem C88_growing_request_space b k :
    List.length (g_mem b) <= g_cap b ->
    says "GrowingBuffer" "request_space" [VRef 0 []; VNat k] [w_growing b] (growing_request_space b k) (fun _ => VUnit) (fun b => [w_growing b]).
  Proof. intros H0. apply meets_wp. apply text_growing_request_says; assumption. Qed.
  Theorem C88_growing_consume b k :
    says "GrowingBuffer" "consume" [VRef 0 []; VNat k] [w_growing b] (growing_consume b k) (fun _ => VUnit) (fun b => [w_growing b]).
  Proof. apply meets_wp. apply text_growing_consume_says. Qed.
  Theorem C88_growing_len b :
    says "GrowingBuffer" "len" [VRef 0 []] [w_growing b] (growing_len b) VNat (fun _ => [w_growing b]).
  Proof. apply meets_wp. apply text_growing_len_says. Qed.
  Theorem C88_growing_capacity b :
    says "GrowingBuffer" "capacity" [VRef 0 []] [w_growing b] (Done (growing_capacity b)) VNat (fun _ => [w_growing b]).
  Proof. apply meets_wp. apply text_growing_capacity_says. Qed.

  (** * src/buffer/stateful.rs *)

  (** The data source in a Source (src/buffer/stateful.rs:68): one of the two of the text, or any other. *)
  Inductive source_in_source : data_source St I -> (St -> value) -> Prop :=
  | read_in_source : source_in_source (read_data_source (ds_read ds)) (fun s => VCon "ReadDataSource" "" [w_ksource s])
  | iterator_in_source : source_in_source (iter_data_source next) (fun s => VCon "IteratorDataSource" "" [w_ksource s])
  | other_source : source_in_source ds w_ksource.
  (** The buffer beside it: one of the two of the text, or (here with a data source from outside) any other.  The length of a vector is at most its
      capacity. *)
  Inductive source_parts : data_source St I -> (St -> value) -> forall B : Type, buffer_ops I B -> (B -> value) -> (B -> Prop) -> Prop :=
  | with_fixed d wd cap more count : source_in_source d wd -> source_parts d wd (fixed_ops I) (w_fixed cap more count) (fun _ => True)
  | with_growing d wd : source_in_source d wd -> source_parts d wd (growing_ops I) w_growing (fun b => List.length (g_mem b) <= g_cap b)
  | with_other : source_parts ds w_ksource ops0 w_kbuffer (fun _ => True).

  Lemma source_in_source_says d wd : source_in_source d wd ->
    source_says (R := out I thing value * list value) verbose eqb ds next ops0 p (new_vectors cap0 extra alloc) starts acts d wd.
  Proof. intros []; [apply read_source_says|apply iterator_source_says|apply outside_source_says]. Qed.
  Lemma source_parts_says d wd B (ops : buffer_ops I B) wb ok : source_parts d wd ops wb ok ->
    buffer_says (R := out I thing value * list value) verbose eqb ds d next ops0 p (new_vectors cap0 extra alloc) starts acts ops wd wb ok.
  Proof.
    intros H. destruct H as [d wd cap more count H|d wd H|]; [apply fixed_says|apply growing_says|apply object_says]; exact (source_in_source_says H).
  Qed.

  Theorem C88_source_new s :
    says "Source" "new" [w_ksource s] [] (let! b := fixed_with_size (6 * 1024) in Done (src_with_buffer s b))
      (w_src (fun s => VCon "ReadDataSource" "" [w_ksource s]) (w_fixed (6 * 1024 + extra (6 * 1024)) alloc 0)) (fun _ => []).
  Proof. apply meets_wp. apply text_src_new_says. Qed.
  Theorem C88_from_read B (wb : B -> value) s b :
    says "Source" "from_read" [w_ksource s; wb b] [] (Done (src_with_buffer s b))
      (w_src (fun s => VCon "ReadDataSource" "" [w_ksource s]) wb) (fun _ => []).
  Proof. apply meets_wp. apply text_src_from_read_says. Qed.
  Theorem C88_from_iter B (wb : B -> value) s b :
    says "Source" "from_iter" [w_ksource s; wb b] [] (Done (src_with_buffer s b))
      (w_src (fun s => VCon "IteratorDataSource" "" [w_ksource s]) wb) (fun _ => []).
  Proof. apply meets_wp. apply text_src_from_iter_says. Qed.
  Theorem C88_with_buffer d wd B (ops : buffer_ops I B) wb ok : source_parts d wd ops wb ok -> forall s b,
    says "Source" "with_buffer" [wd s; wb b] [] (Done (src_with_buffer s b)) (w_src wd wb) (fun _ => []).
  Proof. intros Hb s b. apply meets_wp. apply text_src_with_buffer_says. Qed.
  Theorem C88_fill_requested d wd B (ops : buffer_ops I B) wb ok : source_parts d wd ops wb ok -> forall st request,
    ok (src_buffer st) -> fill_requested d ops request st <> Stuck ->
    says "Source" "fill_requested" [VRef 0 []; VNat request] [w_src wd wb st] (fill_requested d ops request st)
      (fun x => w_io VNat (snd x)) (fun x => [w_src wd wb (fst x)]).
  Proof. intros Hb st request Hok HS. apply meets_wp. apply (text_fill_requested_says (source_parts_says Hb) [] st request); [cbn; lia|assumption|assumption]. Qed.
  Theorem C88_source_fill d wd B (ops : buffer_ops I B) wb ok : source_parts d wd ops wb ok -> forall st,
    ok (src_buffer st) -> src_fill d ops st <> Stuck ->
    says "Source" "fill" [VRef 0 []] [w_src wd wb st] (src_fill d ops st)
      (fun x => w_io VNat (snd x)) (fun x => [w_src wd wb (fst x)]).
  Proof. intros Hb st Hok HS. apply meets_wp. apply (text_src_fill_says (source_parts_says Hb)); assumption. Qed.
  Theorem C88_source_len d wd B (ops : buffer_ops I B) wb ok : source_parts d wd ops wb ok -> forall st,
    ok (src_buffer st) ->
    says "Source" "len" [VRef 0 []] [w_src wd wb st] (src_len ops st)
      VNat (fun _ => [w_src wd wb st]).
  Proof. intros Hb st Hok. apply meets_wp. apply (text_src_len_says (source_parts_says Hb) [] st); [cbn; lia|assumption]. Qed.
  Theorem C88_source_is_empty d wd B (ops : buffer_ops I B) wb ok : source_parts d wd ops wb ok -> forall st,
    ok (src_buffer st) -> src_is_empty ops st <> Stuck ->
    says "Source" "is_empty" [VRef 0 []] [w_src wd wb st] (src_is_empty ops st)
      VBool (fun _ => [w_src wd wb st]).
  Proof. intros Hb st Hok HS. apply meets_wp. apply (text_src_is_empty_says (source_parts_says Hb)); assumption. Qed.
  Theorem C88_source_capacity d wd B (ops : buffer_ops I B) wb ok : source_parts d wd ops wb ok -> forall st,
    ok (src_buffer st) ->
    says "Source" "capacity" [VRef 0 []] [w_src wd wb st] (Done (src_capacity ops st))
      VNat (fun _ => [w_src wd wb st]).
  Proof. intros Hb st Hok. apply meets_wp. apply (text_src_capacity_says (source_parts_says Hb)); assumption. Qed.
  Theorem C88_source_buffer d wd B (ops : buffer_ops I B) wb ok : source_parts d wd ops wb ok -> forall st,
    ok (src_buffer st) ->
    says "Source" "buffer" [VRef 0 []] [w_src wd wb st] (src_view ops st)
      VSlice (fun _ => [w_src wd wb st]).
  Proof. intros Hb st Hok. apply meets_wp. apply (text_src_buffer_says (source_parts_says Hb)); assumption. Qed.
  Theorem C88_source_reset d wd B (ops : buffer_ops I B) wb ok : source_parts d wd ops wb ok -> forall st,
    says "Source" "reset" [VRef 0 []] [w_src wd wb st] (Done (src_reset st))
      (fun _ => VUnit) (fun st => [w_src wd wb st]).
  Proof. intros Hb st. apply meets_wp. apply text_src_reset_says. Qed.
  Theorem C88_source_set_autofill d wd B (ops : buffer_ops I B) wb ok : source_parts d wd ops wb ok -> forall st v,
    says "Source" "set_autofill" [VRef 0 []; VBool v] [w_src wd wb st] (Done (src_set_autofill v st))
      (fun _ => VUnit) (fun st => [w_src wd wb st]).
  Proof. intros Hb st v. apply meets_wp. apply text_src_set_autofill_says. Qed.
  Theorem C88_source_read d wd B (ops : buffer_ops I B) wb ok : source_parts d wd ops wb ok -> forall st m cap more count a n,
    ok (src_buffer st) -> src_read d ops n st <> Stuck ->
    says "Source" "read" [VRef 0 []; VPart 1 [] a n] [w_src wd wb st; VMem m cap more count] (src_read d ops n st)
      (fun x => w_io (fun l => VNat (List.length l)) (snd x)) (fun x => [w_src wd wb (fst x); VMem (match snd x with IoOk l => firstn a m ++ overwrite (List.map Some l) (skipn a m) | IoErr _ => m end) cap more count]).
  Proof. intros Hb st m cap more count a n Hok HS. apply meets_wp. apply (text_src_read_says (source_parts_says Hb)); assumption. Qed.
  Theorem C88_source_fill_buf d wd B (ops : buffer_ops I B) wb ok : source_parts d wd ops wb ok -> forall st,
    ok (src_buffer st) -> src_fill_buf d ops st <> Stuck ->
    says "Source" "fill_buf" [VRef 0 []] [w_src wd wb st] (src_fill_buf d ops st)
      (fun x => w_io VSlice (snd x)) (fun x => [w_src wd wb (fst x)]).
  Proof. intros Hb st Hok HS. apply meets_wp. apply (text_src_fill_buf_says (source_parts_says Hb)); assumption. Qed.
  Theorem C88_source_consume d wd B (ops : buffer_ops I B) wb ok : source_parts d wd ops wb ok -> forall st n,
    ok (src_buffer st) ->
    says "Source" "consume" [VRef 0 []; VNat n] [w_src wd wb st] (src_consume ops n st)
      (fun _ => VUnit) (fun st => [w_src wd wb st]).
  Proof. intros Hb st n Hok. apply meets_wp. apply (text_src_consume_says (source_parts_says Hb)); assumption. Qed.
  Theorem C88_source_parse d wd B (ops : buffer_ops I B) wb ok : source_parts d wd ops wb ok -> forall st,
    ok (src_buffer st) -> src_parse d ops p st <> Stuck ->
    says "Source" "parse" [VRef 0 []; VObj KParser] [w_src wd wb st] (src_parse d ops p st)
      (fun x => w_sres w_kvalue w_kerr (snd x)) (fun x => [w_src wd wb (fst x)]).
  Proof. intros Hb st Hok HS. apply meets_wp. apply (text_src_parse_says (source_parts_says Hb)); assumption. Qed.
End StreamText.

(** * Concrete cases *)

Section StreamCases.
  (** A source that hands out a list in pieces of at most two, and fails with error 7 at 99; a parser that takes one item below 5. *)
  Let pieces : data_source (list nat) nat :=
    mkDataSource (fun s n => match s with
                             | 99 :: s => (s, [], IoErr 7)
                             | _ => let w := firstn (Nat.min 2 n) s in (skipn (List.length w) s, List.map Some w, IoOk (List.length w))
                             end).
  Let uncons (s : list nat) : option nat * list nat := match s with [] => (None, []) | x :: s => (Some x, s) end.
  Let one : parser nat nat nat :=
    fun i => match buf i with
             | [] => Incomplete 1
             | x :: b => if x <? 5 then Data (mkInput (last i) b) x else Error b x
             end.
  Let two : parser nat nat nat :=
    fun i => match buf i with
             | x :: y :: z :: b => Data (mkInput (last i) b) (x + y + z)
             | _ => Incomplete 3
             end.
  Notation gb := (growing nat).
  Let run (p : parser nat nat nat) (ty f : string) (vs s : list (value nat (stream_thing (list nat) gb nat nat))) :=
    call_in (buffer_text true) (outside_stream pieces uncons (growing_ops nat) p) Nat.eqb (new_vectors 0 (fun _ => 0) (fun _ => 1)) KParser no_acts 200 ty f vs s.
  Let source (s : list nat) (m : memory nat) (n u q : nat) : src (list nat) (fixed nat) := mkSrc s (mkFixed m n u) q true false true.

  (** The first call reads twice, asks for three items, and parses them. *)
  Example C88_parse_case :
    run two "Source" "parse" [VRef 0 []; VObj KParser] [w_src w_ksource (w_fixed 4 (fun _ => 0) 0) (source [1; 2; 3; 4; 9] (repeat None 4) 0 0 3)]
    = (Val (w_sres w_kvalue w_kerr (inl 6)), [w_src w_ksource (w_fixed 4 (fun _ => 0) 0) (mkSrc [9] (mkFixed [Some 1; Some 2; Some 3; Some 4] 4 3) 3 false false true)]).
  Proof. vm_compute. reflexivity. Qed.
  Example C88_parse_fuel : src_parse pieces (fixed_ops nat) two (source [1; 2; 3; 4; 9] (repeat None 4) 0 0 3) <> Stuck.
  Proof. vm_compute. discriminate. Qed.
  (** The same with a GrowingBuffer, and with one that is given from outside. *)
  Example C88_parse_growing :
    fst (run two "Source" "parse" [VRef 0 []; VObj KParser] [w_src w_ksource w_growing (mkSrc [1; 2; 3; 4; 9] (growing_with_limit 0 (fun _ => 1) 0) 3 true false true)])
    = Val (w_sres w_kvalue w_kerr (inl 6)).
  Proof. vm_compute. reflexivity. Qed.
  Example C88_parse_outside :
    fst (run two "Source" "parse" [VRef 0 []; VObj KParser] [w_src w_ksource w_kbuffer (mkSrc [1; 2; 3; 4; 9] (growing_with_limit 0 (fun _ => 1) 0) 3 true false true)])
    = Val (w_sres w_kvalue w_kerr (inl 6)).
  Proof. vm_compute. reflexivity. Qed.
  (** From an iterator, as made by [from_iter]; from a reader, as made by [from_read]. *)
  Example C88_parse_iterator :
    run two "Source" "parse" [VRef 0 []; VObj KParser]
      [w_src (fun s => VCon "IteratorDataSource" "" [w_ksource s]) (w_fixed 4 (fun _ => 0) 0) (source [1; 2; 3; 4; 9] (repeat None 4) 0 0 3)]
    = (Val (w_sres w_kvalue w_kerr (inl 6)),
       [w_src (fun s => VCon "IteratorDataSource" "" [w_ksource s]) (w_fixed 4 (fun _ => 0) 0) (mkSrc [9] (mkFixed [Some 1; Some 2; Some 3; Some 4] 4 3) 3 false false true)]).
  Proof. vm_compute. reflexivity. Qed.
  Example C88_parse_reader :
    fst (run two "Source" "parse" [VRef 0 []; VObj KParser]
           [w_src (fun s => VCon "ReadDataSource" "" [w_ksource s]) w_growing (mkSrc [1; 2; 3; 4; 9] (growing_with_limit 0 (fun _ => 1) 0) 3 true false true)])
    = Val (w_sres w_kvalue w_kerr (inl 6)).
  Proof. vm_compute. reflexivity. Qed.
  (** Too little, at the end: incomplete, then the end of the input. *)
  Example C88_parse_incomplete :
    fst (run two "Source" "parse" [VRef 0 []; VObj KParser] [w_src w_ksource (w_fixed 4 (fun _ => 0) 0) (source [1; 2] (repeat None 4) 0 0 0)])
    = Val (w_sres w_kvalue w_kerr (inr SRetry)).
  Proof. vm_compute. reflexivity. Qed.
  Example C88_parse_io :
    fst (run one "Source" "parse" [VRef 0 []; VObj KParser] [w_src w_ksource (w_fixed 4 (fun _ => 0) 0) (source [99; 1] (repeat None 4) 0 0 0)])
    = Val (w_sres w_kvalue w_kerr (inr (SIoError 7))).
  Proof. vm_compute. reflexivity. Qed.
  Example C88_slice_parse_case :
    run one "SliceStream" "parse" [VRef 0 []; VObj KParser] [w_slices (mkSliceStream 1 [9; 2; 3])]
    = (Val (w_sres w_kvalue w_kerr (inl 2)), [w_slices (mkSliceStream 2 [9; 2; 3])]).
  Proof. vm_compute. reflexivity. Qed.
  (** [request_space] moves the items to the front. *)
  Example C88_fixed_request_case :
    run one "FixedSizeBuffer" "request_space" [VRef 0 []; VNat 2] [w_fixed 4 (fun _ => 0) 0 (mkFixed [Some 1; Some 2; Some 3; None] 3 2)]
    = (Val VUnit, [w_fixed 4 (fun _ => 0) 0 (mkFixed [Some 3; Some 2; Some 3; None] 1 0)]).
  Proof. vm_compute. reflexivity. Qed.
  (** To read what was never written is undefined; to consume too much is a panic. *)
  Example C88_undefined_case :
    fst (run one "FixedSizeBuffer" "deref" [VRef 0 []] [w_fixed 4 (fun _ => 0) 0 (mkFixed [Some 1; None] 2 0)]) = Wrong.
  Proof. vm_compute. reflexivity. Qed.
  Example C88_panic_case :
    fst (run one "FixedSizeBuffer" "consume" [VRef 0 []; VNat 2] [w_fixed 4 (fun _ => 0) 0 (mkFixed [Some 1; None] 1 0)]) = Panicking.
  Proof. vm_compute. reflexivity. Qed.
  Example C88_growing_request_case :
    run one "GrowingBuffer" "request_space" [VRef 0 []; VNat 3] [w_growing (mkGrowing [Some 1; Some 2] 2 2 0 1 (fun _ => 1) 0)]
    = (Val VUnit, [w_growing (mkGrowing [Some 1; Some 2; None; None; None; None] 6 2 0 1 (fun _ => 1) 1)]).
  Proof. vm_compute. reflexivity. Qed.
  Example C88_iterator_case :
    run one "IteratorDataSource" "read" [VRef 0 []; VPart 1 [] 1 3] [VCon "IteratorDataSource" "" [w_ksource [5; 6]]; VMem [Some 1; None; None; None] 4 (fun _ => 0) 0]
    = (Val (w_io VNat (IoOk 2)), [VCon "IteratorDataSource" "" [w_ksource []]; VMem [Some 1; Some 5; Some 6; None] 4 (fun _ => 0) 0]).
  Proof. vm_compute. reflexivity. Qed.
  Example C88_read_case :
    run one "Source" "read" [VRef 0 []; VPart 1 [] 0 2] [w_src w_ksource (w_fixed 4 (fun _ => 0) 0) (source [] [Some 1; Some 2; Some 3; None] 3 1 0); VMem [None; None] 2 (fun _ => 0) 0]
    = (Val (w_io VNat (IoOk 2)),
       [w_src w_ksource (w_fixed 4 (fun _ => 0) 0) (mkSrc [] (mkFixed [Some 1; Some 2; Some 3; None] 3 3) 0 true false true); VMem [Some 2; Some 3] 2 (fun _ => 0) 0]).
  Proof. vm_compute. reflexivity. Qed.
  (** Without enough fuel there is no answer. *)
  Example C88_tired_case :
    fst (call_in (buffer_text true) (outside_stream pieces uncons (growing_ops nat) one) Nat.eqb (new_vectors 0 (fun _ => 0) (fun _ => 1)) KParser no_acts 12
      "Source" "parse" [VRef 0 []; VObj KParser] [w_src w_ksource (w_fixed 4 (fun _ => 0) 0) (source [1; 2] (repeat None 4) 0 0 0)]) = Tired.
  Proof. vm_compute. reflexivity. Qed.
End StreamCases.

Print Assumptions C88_slice_new.
Print Assumptions C88_into_stream.
Print Assumptions C88_slice_len.
Print Assumptions C88_slice_is_empty.
Print Assumptions C88_slice_parse.
Print Assumptions C88_read_new.
Print Assumptions C88_read_into_inner.
Print Assumptions C88_read_source.
Print Assumptions C88_iterator_new.
Print Assumptions C88_iterator_into_inner.
Print Assumptions C88_iterator_source.
Print Assumptions C88_fixed_new.
Print Assumptions C88_fixed_with_size.
Print Assumptions C88_fixed_deref.
Print Assumptions C88_fixed_deref_mut.
Print Assumptions C88_fixed_fill.
Print Assumptions C88_fixed_request_space.
Print Assumptions C88_fixed_consume.
Print Assumptions C88_fixed_len.
Print Assumptions C88_fixed_capacity.
Print Assumptions C88_growing_new.
Print Assumptions C88_growing_with_limit.
Print Assumptions C88_growing_deref.
Print Assumptions C88_growing_deref_mut.
Print Assumptions C88_growing_fill.
Print Assumptions C88_growing_request_space.
Print Assumptions C88_growing_consume.
Print Assumptions C88_growing_len.
Print Assumptions C88_growing_capacity.
Print Assumptions C88_source_new.
Print Assumptions C88_from_read.
Print Assumptions C88_from_iter.

(** The theorems on the methods of Source together: their axioms are looked for once. *)
Definition C88_methods_of_source :=
  (@C88_with_buffer,
   @C88_fill_requested,
   @C88_source_fill,
   @C88_source_len,
   @C88_source_is_empty,
   @C88_source_capacity,
   @C88_source_buffer,
   @C88_source_reset,
   @C88_source_set_autofill,
   @C88_source_read,
   @C88_source_fill_buf,
   @C88_source_consume,
   @C88_source_parse).
Print Assumptions C88_methods_of_source.
