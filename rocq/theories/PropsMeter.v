(** C58: what buffers move (src/buffer/buffer.rs, src/buffer/stateful.rs). *)
From Coq Require Import List Bool Arith Lia.
From Verif Require Import Base Buffer Stream SpecBase SpecSafe SpecBuffer SpecStream Meter SpecMeter BufferProofs StreamProofs MeterProofs.
Import ListNotations.

Set Implicit Arguments.

(** The meters do not disturb: every call does what it does without. *)
Theorem C58_undisturbed_fixed : forall St I (ds : data_source St I) st, undisturbed ds (fixed_ops I) (fixed_metered I) st.
Proof. intros St I ds st. apply meter_undisturbed. apply fixed_request_unmetered. Qed.
Theorem C58_undisturbed_growing : forall St I (ds : data_source St I) st, undisturbed ds (growing_ops I) (growing_metered I) st.
Proof. intros St I ds st. apply meter_undisturbed. apply growing_request_unmetered. Qed.

(** A FixedSizeBuffer of which nobody asks for more than [M] items at a time moves at most [M - 1] items for every [size + 2 - 2 * M] that it
    receives, however they come. *)
Theorem C58_fixed : forall St I (ds : data_source St I) M size s0 b0 st, 1 <= M -> 2 * M <= size + 1 -> fixed_with_size size = Done b0 ->
  demanding ds (fixed_metered I) false M s0 (b0, meter_zero) st ->
  mt_moves (meter_of st) * (size + 2 - 2 * M) <= mt_received (meter_of st) /\
  mt_moved (meter_of st) * (size + 2 - 2 * M) <= (M - 1) * mt_received (meter_of st) /\
  mt_moved (meter_of st) <= (M - 1) * mt_moves (meter_of st).
Proof.
  intros St I ds M size s0 b0 st HM Hs Hnew H.
  destruct (@demanding_invariant St I _ ds (fixed_metered I) false M (fun x _ => f_metered size M x) HM) with (s0 := s0) (b0 := (b0, meter_zero)) (st := st) as [G _].
  - intros x s x' l k Hx Hl Hk [Hlk|[Hf _]]; [|discriminate]. apply (@f_metered_request I size M x x' l k HM Hs Hx Hl Hk Hlk).
  - intros x s x' s' r Hx Hr. exact (proj1 (f_metered_fill _ _ _ _ _ Hx Hr)).
  - intros x s x' k Hx Hr. exact (proj1 (f_metered_consume _ _ _ _ Hx Hr)).
  - apply f_metered_new. assumption.
  - assumption.
  - unfold meter_of. destruct (src_buffer st) as [b mt]. destruct G as (_ & a & G1 & G2 & G3 & G4 & G5 & G6). cbn [snd].
    split; [lia|]. split; [|assumption]. etransitivity; [exact G5|]. apply Nat.mul_le_mono_l. lia.
Qed.
(** So that with room for six requests it moves less than a quarter of the data, *)
Theorem C58_quarter : forall St I (ds : data_source St I) M size s0 b0 st, 1 <= M -> 6 * M <= size -> fixed_with_size size = Done b0 ->
  demanding ds (fixed_metered I) false M s0 (b0, meter_zero) st -> 4 * mt_moved (meter_of st) <= mt_received (meter_of st).
Proof.
  intros St I ds M size s0 b0 st HM Hs Hnew H. destruct (C58_fixed size HM ltac:(lia) Hnew H) as (_ & G & _).
  assert (G1 : mt_moved (meter_of st) * (4 * M) <= M * mt_received (meter_of st)).
  { transitivity (mt_moved (meter_of st) * (size + 2 - 2 * M)); [apply Nat.mul_le_mono_l; lia|]. etransitivity; [exact G|]. apply Nat.mul_le_mono_r. lia. }
  nia.
Qed.
(** and who asks for single items only makes it move nothing at all. *)
Theorem C58_single : forall St I (ds : data_source St I) size s0 b0 st, fixed_with_size size = Done b0 ->
  demanding ds (fixed_metered I) false 1 s0 (b0, meter_zero) st -> mt_moved (meter_of st) = 0.
Proof.
  intros St I ds size s0 b0 st Hnew H. assert (Hs : 1 <= size) by (unfold fixed_with_size in Hnew; destruct size; [discriminate|lia]).
  destruct (C58_fixed (M := 1) size ltac:(lia) ltac:(lia) Hnew H) as (_ & _ & G). cbn in G. lia.
Qed.
(** In terms of the data that the source has. *)
Theorem C58_data : forall St I (ds : data_source St I) R M size s0 data e b0 st, delivers ds R -> R s0 data e -> 1 <= M -> 2 * M <= size + 1 -> fixed_with_size size = Done b0 ->
  demanding ds (fixed_metered I) false M s0 (b0, meter_zero) st -> mt_moved (meter_of st) * (size + 2 - 2 * M) <= (M - 1) * length data.
Proof.
  intros St I ds R M size s0 data e b0 st HR Hs0 HM Hs Hnew H. destruct (C58_fixed size HM Hs Hnew H) as (_ & G & _). etransitivity; [exact G|]. apply Nat.mul_le_mono_l.
  destruct (@demanding_invariant St I _ ds (fixed_metered I) false M
    (fun x s => f_metered size M x /\ exists d e, R s d e /\ mt_received (snd x) + length d = length data) HM) with (s0 := s0) (b0 := (b0, meter_zero)) (st := st) as [[_ (d & e1 & _ & G1)] _].
  - intros x s x' l k [Hx Hd] Hl Hk [Hlk|[Hf _]] Hr; [|discriminate]. split; [apply (@f_metered_request I size M x x' l k HM Hs Hx Hl Hk Hlk Hr)|].
    replace (mt_received (snd x')) with (mt_received (snd x)); [assumption|]. destruct x as [b mt], x' as [b' mt']. destruct (fixed_request_done _ _ (proj1 Hx) Hr) as (_ & [[_ ->]|(_ & _ & _ & ->)]); reflexivity.
  - intros x s x' s' r [Hx (d & e1 & Hd & Hl)] Hr. destruct (f_metered_fill _ _ _ _ _ Hx Hr) as [Hx' Hm]. split; [assumption|].
    destruct x as [b mt]. cbn [fixed_metered metered op_fill metered_fill fixed_ops] in Hr. destruct (fixed_fill ds b s) as [[[b1 s1] r1]| | |] eqn:Ef; try discriminate.
    cbn [run_bind] in Hr. injection Hr as <- <- <-. rewrite Hm. unfold fixed_fill in Ef. destruct (assert _); try discriminate. cbn [run_bind] in Ef.
    destruct (ds_read ds s _) as [[s2 w] r2] eqn:Er. specialize (HR s d e1 Hd _ _ _ _ Er). destruct r2 as [n|x].
    + destruct (assert (_ <=? length _)); try discriminate. cbn [run_bind] in Ef. injection Ef as <- <- <-. destruct HR as (_ & c & d' & -> & Hc & _ & Hd' & _).
      exists d', e1. split; [assumption|]. rewrite app_length in Hl. lia.
    + injection Ef as <- <- <-. destruct HR as (e' & _ & Hd'). exists d, e'. split; [assumption|lia].
  - intros x s x' k [Hx Hd] Hr. destruct (f_metered_consume _ _ _ _ Hx Hr) as [Hx' Hm]. split; [assumption|]. rewrite Hm. assumption.
  - split; [apply f_metered_new; assumption|]. exists data, e. split; [assumption|reflexivity].
  - assumption.
  - unfold meter_of. lia.
Qed.

(** A GrowingBuffer allocates at most [M] times, however long the stream is, and relocates at most [M * (M - 1) / 2] items, whatever the
    allocator does; a move is of at most [M - 1] items. *)
Theorem C58_growing : forall St I (ds : data_source St I) filling M alloc limit s0 st, 1 <= M ->
  demanding ds (growing_metered I) filling M s0 (growing_with_limit 0 alloc limit, meter_zero) st ->
  mt_allocations (meter_of st) <= M /\ 2 * mt_relocated (meter_of st) <= M * (M - 1) /\
  (filling = false -> mt_moved (meter_of st) <= (M - 1) * mt_moves (meter_of st)).
Proof.
  intros St I ds filling M alloc limit s0 st HM H.
  destruct (@demanding_invariant St I _ ds (growing_metered I) filling M (fun x _ => g_metered filling M x) HM) with (s0 := s0) (b0 := (growing_with_limit 0 alloc limit : growing I, meter_zero)) (st := st) as [G _].
  - intros x s x' l k Hx Hl Hk Hlk Hr. exact (g_metered_request _ HM Hx Hl Hk Hlk Hr).
  - intros x s x' s' r Hx Hr. exact (g_metered_fill _ _ _ _ _ Hx Hr).
  - intros x s x' k Hx Hr. exact (g_metered_consume _ _ _ _ Hx Hr).
  - apply g_metered_new.
  - assumption.
  - unfold meter_of. destruct (src_buffer st) as [b mt]. destruct G as (_ & G1 & G2 & G3). cbn [snd]. split; [lia|]. split; [|assumption].
    etransitivity; [exact G2|]. apply Nat.mul_le_mono; lia.
Qed.

(** Nothing of the kind holds for [fill_buf], which moves all that is left whenever it is called: to take [n + 1] items one by one, [size - 1] items
    are moved [n] times. *)
Theorem C58_fill_buf : forall I size n (data : list I) b0, size + n < length data -> fixed_with_size size = Done b0 -> exists st,
  take_singly (read_data_source chunk_read) (fixed_metered I) (S n) (src_with_buffer [Some data] (b0, meter_zero)) = Done st /\
  mt_moves (meter_of st) = n /\ mt_moved (meter_of st) = n * (size - 1) /\ mt_received (meter_of st) = size + n.
Proof.
  intros I size n data b0 Hd Hnew. unfold fixed_with_size in Hnew. destruct size as [|size]; [discriminate|]. cbn in Hnew. injection Hnew as <-.
  destruct data as [|y data]; [cbn in Hd; lia|]. cbn [length] in Hd. rewrite <- (firstn_skipn size data). set (w := firstn size data). set (c := skipn size data).
  assert (Hw : length w = size) by (unfold w; rewrite firstn_length; lia). assert (Hc : n < length c) by (unfold c; rewrite skipn_length; lia).
  rewrite take_singly_S. change (None :: repeat None size) with (repeat (@None I) (S size)). rewrite <- Hw. rewrite singly_starts by (intros E; rewrite E in Hc; cbn in Hc; lia). cbn [run_bind].
  destruct (singly_slides w y c (mkMeter 0 0 0 0 (S (length w))) 0 true false true Hc) as (y' & w' & c' & H1 & _). rewrite H1. eexists. split; [reflexivity|].
  cbn [meter_of src_buffer snd mt_moves mt_moved mt_received]. repeat split; cbn; rewrite ?Nat.sub_0_r; lia.
Qed.
(** Nor for a GrowingBuffer, which is never larger than it has to be: a parser that looks [M] items ahead moves [M - 1] items per item. *)
Theorem C58_ahead : forall I M n (data : list I), 2 <= M -> M + n < length data -> exists st,
  parse_times (read_data_source chunk_read) (growing_metered I) (ahead M) (2 + 2 * n) (src_with_buffer [Some data] (growing_with_limit 0 (fun _ => 0) 0, meter_zero)) = Done st /\
  mt_moves (meter_of st) = n /\ mt_moved (meter_of st) = n * (M - 1) /\ mt_received (meter_of st) = M + n /\ mt_allocations (meter_of st) = 2.
Proof.
  intros I M n data HM Hd. destruct M as [|[|M]]; [lia|lia|]. destruct data as [|x [|z data]]; [cbn in Hd; lia|cbn in Hd; lia|]. cbn [length] in Hd.
  rewrite <- (firstn_skipn M data). set (w := firstn M data). set (c := skipn M data).
  assert (Hw : length w = M) by (unfold w; rewrite firstn_length; lia). assert (Hc : n < length c) by (unfold c; rewrite skipn_length; lia).
  rewrite parse_times_app, <- Hw. rewrite ahead_starts by (intros E; rewrite E in Hc; cbn in Hc; lia). cbn [run_bind]. change (S (S (length w))) with (S (length (z :: w))).
  destruct (ahead_iterates (z :: w) x c 2 (mkMeter 0 0 2 1 (S (length (z :: w)))) (S (length (z :: w))) Hc) as (y' & w' & c' & H1 & _). rewrite H1. eexists. split; [reflexivity|].
  cbn [meter_of src_buffer g_full snd mt_moves mt_moved mt_received mt_allocations length Nat.sub]. repeat split; lia.
Qed.
Print Assumptions C58_undisturbed_fixed.
Print Assumptions C58_undisturbed_growing.
Print Assumptions C58_fixed.
Print Assumptions C58_quarter.
Print Assumptions C58_single.
Print Assumptions C58_data.
Print Assumptions C58_growing.
Print Assumptions C58_fill_buf.
Print Assumptions C58_ahead.

(** A buffer of four slots, with requests for two items, an I/O error on the way: two items are moved while ten are received, the bound is five. *)
Example C58_case : exists st b0, fixed_with_size 4 = Done b0 /\
  demanding (read_data_source chunk_read) (fixed_metered nat) false 2 [Some [1; 2; 3]; None; Some [4; 5; 6; 7; 8; 9; 10; 11; 12]] (b0, meter_zero) st /\
  meter_of st = mkMeter 2 2 0 0 10.
Proof.
  pose proof (@de_new _ _ _ (read_data_source chunk_read) (fixed_metered nat) false 2 [Some [1; 2; 3]; None; Some [4; 5; 6; 7; 8; 9; 10; 11; 12]] (mkFixed (repeat None 4) 0 0, meter_zero)) as H.
  do 11 (eapply (fun a b c => @de_parse _ _ _ _ _ _ _ _ _ a _ _ (ahead 2) b c) in H; [|vm_compute; reflexivity|vm_compute; repeat constructor]).
  eexists. eexists. split; [reflexivity|]. split; [exact H|]. vm_compute. reflexivity.
Qed.
(** A growing buffer, with requests for three items and with [fill_buf]. *)
Example C58_growing_case : exists st,
  demanding (read_data_source chunk_read) (growing_metered nat) true 3 [Some [1; 2; 3]; None; Some [4; 5; 6; 7; 8; 9; 10; 11; 12]] (growing_with_limit 0 (fun _ => 0) 0, meter_zero) st /\
  meter_of st = mkMeter 4 8 2 1 7.
Proof.
  pose proof (@de_new _ _ _ (read_data_source chunk_read) (growing_metered nat) true 3 [Some [1; 2; 3]; None; Some [4; 5; 6; 7; 8; 9; 10; 11; 12]] (growing_with_limit 0 (fun _ => 0) 0, meter_zero)) as H.
  do 10 (eapply (fun a b c => @de_parse _ _ _ _ _ _ _ _ _ a _ _ (ahead 3) b c) in H; [|vm_compute; reflexivity|vm_compute; repeat constructor]).
  eapply de_fill_buf in H; [|reflexivity|vm_compute; reflexivity].
  eexists. split; [exact H|]. vm_compute. reflexivity.
Qed.
