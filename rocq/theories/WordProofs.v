(** Proofs about machine words and build modes. *)
From Coq Require Import List Bool Arith Lia.
From Verif Require Import Base Parsers Buffer Stream Word SpecBuffer SpecStream SpecWord BufferProofs.
Import ListNotations.

Set Implicit Arguments.

(** * Panic or the same *)
Definition le2 {A} (r r' : run A) : Prop := r = Panicked \/ r = r'.

Lemma le2_refl : forall A (r : run A), le2 r r.
Proof. right; reflexivity. Qed.
Lemma le2_panic : forall A (r : run A), le2 Panicked r.
Proof. left; reflexivity. Qed.
#[export] Hint Resolve le2_refl le2_panic : le2.

Lemma le2_bind : forall A B (r r' : run A) (f f' : A -> run B), le2 r r' -> (forall a, r' = Done a -> le2 (f a) (f' a)) -> le2 (run_bind r f) (run_bind r' f').
Proof.
  intros A B r r' f f' [H|H] Hf; subst; [left; reflexivity|]. destruct r'; cbn [run_bind]; auto with le2.
Qed.

Ltac le2_step :=
  match goal with
  | |- le2 ?x ?x => apply le2_refl
  | |- le2 Panicked _ => apply le2_panic
  | |- le2 (run_bind _ _) (run_bind _ _) => apply le2_bind; [|intros ?a ?Ha]
  | |- le2 (let '(_, _) := ?x in _) _ => destruct x
  | |- le2 (match ?x with _ => _ end) (match ?x with _ => _ end) => destruct x eqn:?
  end.

Section Builds.
  Variables W A : nat.
  Let d := debug_build W A.
  Let r := release_build W A.

  Lemma add_le2 : forall a b, le2 (w_add d a b) (w_add r a b).
  Proof. intros a b. unfold w_add. cbn [w_size w_debug d r debug_build release_build]. destruct (a + b <? W); auto with le2. Qed.
  Lemma sub_le2 : forall a b, le2 (w_sub d a b) (w_sub r a b).
  Proof. intros a b. unfold w_sub. cbn [w_size w_debug d r debug_build release_build]. destruct (b <=? a); auto with le2. Qed.
  Lemma assert_le2 : forall a b c, le2 (w_debug_assert_sum d a b c) (w_debug_assert_sum r a b c).
  Proof.
    intros a b c. unfold w_debug_assert_sum, w_add. cbn [w_size w_debug d r debug_build release_build].
    destruct (a + b <? W); cbn [run_bind]; auto with le2. unfold assert. destruct (a + b <=? c); auto with le2.
  Qed.

  Record ops_le2 {I B} (o o' : buffer_ops I B) : Prop := mkOpsLe2 {
    ol_deref : forall b, le2 (op_deref o b) (op_deref o' b);
    ol_fill : forall St (ds : data_source St I) b s, le2 (op_fill o ds b s) (op_fill o' ds b s);
    ol_request : forall b n, le2 (op_request_space o b n) (op_request_space o' b n);
    ol_consume : forall b n, le2 (op_consume o b n) (op_consume o' b n);
    ol_len : forall b, le2 (op_len o b) (op_len o' b);
    ol_capacity : forall b, op_capacity o b = op_capacity o' b }.

  Ltac le2s := repeat first [le2_step | apply add_le2 | apply sub_le2 | apply assert_le2 | apply le2_refl].

  Lemma fixed_builds : forall I, ops_le2 (w_fixed_ops I d) (w_fixed_ops I r).
  Proof.
    intros I. split; cbn [w_fixed_ops op_deref op_fill op_request_space op_consume op_len op_capacity]; intros; auto with le2;
      unfold w_fixed_fill, w_fixed_request_space, w_fixed_consume, w_fixed_len; le2s.
  Qed.

  Lemma growing_builds : forall I, ops_le2 (w_growing_ops I d) (w_growing_ops I r).
  Proof.
    intros I. split; cbn [w_growing_ops op_deref op_fill op_request_space op_consume op_len op_capacity]; intros; auto with le2;
      unfold w_growing_fill, w_growing_request_space, w_growing_consume, w_growing_len, w_growing_reserve; le2s.
  Qed.

  Lemma slice_builds : forall I T E (p : parser I T E) s, le2 (w_slice_parse d p s) (w_slice_parse r p s).
  Proof. intros. unfold w_slice_parse, w_slice_len. le2s. Qed.

  Section Source.
    Context {St I B : Type}.
    Variable ds : data_source St I.
    Variables o o' : buffer_ops I B.
    Hypothesis L : ops_le2 o o'.

    Lemma loop_builds : forall fuel q n b s, le2 (w_fill_loop d ds o fuel q n b s) (w_fill_loop r ds o' fuel q n b s).
    Proof.
      induction fuel as [|fuel IH]; intros q n b s; [apply le2_refl|]. cbn [w_fill_loop]. apply le2_bind; [apply (ol_len L)|intros l Hl].
      destruct (l <? q); [|apply le2_refl]. apply le2_bind; [apply (ol_fill L)|]. intros [[b1 s1] x] Hx. destruct x as [[|k]|e]; try apply le2_refl.
      apply le2_bind; [apply add_le2|]. intros; apply IH.
    Qed.

    Lemma requested_builds : forall q st, le2 (w_fill_requested d ds o q st) (w_fill_requested r ds o' q st).
    Proof.
      intros q st. unfold w_fill_requested. apply le2_bind; [apply (ol_len L)|intros l Hl]. destruct (l <? q); [|apply le2_refl].
      apply le2_bind; [apply sub_le2|intros k Hk]. apply le2_bind; [apply (ol_request L)|intros b Hb]. rewrite (ol_capacity L).
      apply le2_bind; [apply loop_builds|intros [[b1 s1] x] Hx]. apply le2_refl.
    Qed.

    Lemma fill_builds : forall st, le2 (w_src_fill d ds o st) (w_src_fill r ds o' st).
    Proof.
      intros st. unfold w_src_fill. apply le2_bind; [apply requested_builds|intros [st1 x] Hx]. destruct x; [|apply le2_refl].
      apply le2_bind; [apply (ol_len L)|intros; apply le2_refl].
    Qed.

    Lemma read_builds : forall n st, le2 (w_src_read d ds o n st) (w_src_read r ds o' n st).
    Proof.
      intros n st. unfold w_src_read, src_len. apply le2_bind; [apply (ol_len L)|intros l Hl].
      apply le2_bind; [destruct (l <? n); [apply requested_builds|apply le2_refl]|intros [st1 x] Hx]. destruct x; [|apply le2_refl].
      apply le2_bind; [apply (ol_deref L)|intros dt Hd]. apply le2_bind; [apply (ol_consume L)|intros; apply le2_refl].
    Qed.

    Lemma fill_buf_builds : forall st, le2 (w_src_fill_buf d ds o st) (w_src_fill_buf r ds o' st).
    Proof.
      intros st. unfold w_src_fill_buf, src_capacity, src_view. rewrite (ol_capacity L). apply le2_bind; [apply requested_builds|intros [st1 x] Hx].
      destruct x; [|apply le2_refl]. apply le2_bind; [apply (ol_deref L)|intros; apply le2_refl].
    Qed.

    Lemma consume_builds : forall n (st : src St B), le2 (src_consume o n st) (src_consume o' n st).
    Proof. intros n st. unfold src_consume. apply le2_bind; [apply (ol_consume L)|intros; apply le2_refl]. Qed.

    Lemma is_empty_builds : forall (st : src St B), le2 (src_is_empty o st) (src_is_empty o' st).
    Proof.
      intros st. unfold src_is_empty, src_len. destruct (src_eoi st); [|apply le2_refl]. apply le2_bind; [apply (ol_len L)|intros; apply le2_refl].
    Qed.

    Lemma parse_builds : forall T E (p : parser I T E) st, le2 (w_src_parse d ds o p st) (w_src_parse r ds o' p st).
    Proof.
      intros T E p st. unfold w_src_parse. apply le2_bind; [destruct (src_incomplete st && src_auto st); [apply fill_builds|apply le2_refl]|intros [st1 x] Hx].
      destruct x; [|apply le2_refl]. apply le2_bind; [apply is_empty_builds|intros e He]. destruct e; [apply le2_refl|].
      apply le2_bind; [apply (ol_deref L)|intros dt Hd].
      destruct (p (mkInput (src_eoi st1) dt)); try apply le2_refl; (apply le2_bind; [apply (ol_len L)|intros l Hl]).
      - apply le2_bind; [apply sub_le2|intros k Hk]. apply le2_bind; [apply (ol_consume L)|intros; apply le2_refl].
      - apply le2_bind; [apply sub_le2|intros k Hk]. apply le2_bind; [apply (ol_consume L)|intros; apply le2_refl].
      - apply le2_bind; [apply add_le2|intros; apply le2_refl].
    Qed.
  End Source.

  (** * A debug build against unbounded numbers *)
  Lemma add_nat : forall a b, le2 (w_add d a b) (Done (a + b)).
  Proof. intros a b. unfold w_add. cbn [w_size w_debug d debug_build]. destruct (a + b <? W); auto with le2. Qed.
  Lemma sub_nat : forall a b, le2 (w_sub d a b) (usize_sub a b).
  Proof. intros a b. unfold w_sub, usize_sub. cbn [w_size w_debug d debug_build]. apply le2_refl. Qed.
  Lemma assert_nat : forall a b c, le2 (w_debug_assert_sum d a b c) (assert (a + b <=? c)).
  Proof.
    intros a b c. unfold w_debug_assert_sum. cbn [w_debug d debug_build]. destruct (add_nat a b) as [H|H]; rewrite H; cbn [run_bind]; auto with le2.
  Qed.
  Lemma add_then : forall X a b (f : nat -> run X) k, le2 (f (a + b)) k -> le2 (run_bind (w_add d a b) f) k.
  Proof. intros X a b f k H. destruct (add_nat a b) as [E|E]; rewrite E; cbn [run_bind]; auto with le2. Qed.

  Ltac le2n := repeat first [apply add_then | le2_step | apply sub_nat | apply assert_nat].

  Lemma fixed_nat : forall I, ops_le2 (w_fixed_ops I d) (fixed_ops I).
  Proof.
    intros I. split; cbn [w_fixed_ops fixed_ops op_deref op_fill op_request_space op_consume op_len op_capacity]; intros; auto with le2;
      unfold w_fixed_fill, w_fixed_request_space, w_fixed_consume, w_fixed_len, fixed_fill, fixed_request_space, fixed_consume, fixed_len; le2n.
  Qed.

  Lemma growing_nat : forall I, ops_le2 (w_growing_ops I d) (growing_ops I).
  Proof.
    intros I. split; cbn [w_growing_ops growing_ops op_deref op_fill op_request_space op_consume op_len op_capacity]; intros; auto with le2;
      unfold w_growing_fill, w_growing_request_space, w_growing_consume, w_growing_len, w_growing_reserve,
        growing_fill, growing_request_space, growing_consume, growing_len; le2n.
    destruct (g_cap b <? n + a).
    - destruct (n <=? g_cap b - length (g_mem b)); cbn [run_bind]; [le2n|]. unfold assert at 1. match goal with |- context [if ?c then Done tt else Panicked] => destruct c end; cbn [run_bind]; le2n.
    - cbn [run_bind]. le2n.
  Qed.

  Definition le3 {X} (x x' : run X) : Prop := x = Panicked \/ x = x' \/ x' = Stuck.
  Lemma le3_refl : forall X (x : run X), le3 x x.
  Proof. right; left; reflexivity. Qed.
  Lemma le2_le3 : forall X (x x' : run X), le2 x x' -> le3 x x'.
  Proof. intros X x x' [H|H]; [left|right; left]; assumption. Qed.
  Lemma le3_bind : forall X Y (x x' : run X) (f f' : X -> run Y), le3 x x' -> (forall a, x' = Done a -> le3 (f a) (f' a)) -> le3 (run_bind x f) (run_bind x' f').
  Proof.
    intros X Y x x' f f' [H|[H|H]] Hf; subst; [left; reflexivity| |right; right; reflexivity].
    destruct x'; cbn [run_bind]; auto using le3_refl.
  Qed.
  Lemma le3_bind2 : forall X Y (x x' : run X) (f f' : X -> run Y), le2 x x' -> (forall a, x' = Done a -> le3 (f a) (f' a)) -> le3 (run_bind x f) (run_bind x' f').
  Proof. intros; apply le3_bind; auto using le2_le3. Qed.
  Lemma add_then3 : forall X a b (f : nat -> run X) k, le3 (f (a + b)) k -> le3 (run_bind (w_add d a b) f) k.
  Proof. intros X a b f k H. destruct (add_nat a b) as [E|E]; rewrite E; cbn [run_bind]; auto. left; reflexivity. Qed.

  Section SourceNat.
    Context {St I B : Type}.
    Variable ds : data_source St I.
    Variables o o' : buffer_ops I B.
    Hypothesis L : ops_le2 o o'.

    Lemma loop_nat : forall fuel fuel' q n b s, fuel <= fuel' -> le3 (w_fill_loop d ds o fuel' q n b s) (fill_loop ds o' fuel q n b s).
    Proof.
      induction fuel as [|fuel IH]; intros fuel' q n b s Hf; [right; right; reflexivity|]. destruct fuel' as [|fuel']; [lia|].
      cbn [w_fill_loop fill_loop]. apply le3_bind2; [apply (ol_len L)|intros l Hl].
      destruct (l <? q); [|apply le3_refl]. apply le3_bind2; [apply (ol_fill L)|]. intros [[b1 s1] x] Hx. destruct x as [[|k]|e]; try apply le3_refl.
      apply add_then3. apply IH. lia.
    Qed.

    Lemma requested_nat : forall q st, le3 (w_fill_requested d ds o q st) (fill_requested ds o' q st).
    Proof.
      intros q st. unfold w_fill_requested, fill_requested. apply le3_bind2; [apply (ol_len L)|intros l Hl]. destruct (l <? q); [|apply le3_refl].
      apply le3_bind2; [apply sub_nat|intros k Hk]. apply le3_bind2; [apply (ol_request L)|intros b Hb].
      apply le3_bind; [apply loop_nat; lia|intros [[b1 s1] x] Hx]. apply le3_refl.
    Qed.

    Lemma fill_nat : forall st, le3 (w_src_fill d ds o st) (src_fill ds o' st).
    Proof.
      intros st. unfold w_src_fill, src_fill. apply le3_bind; [apply requested_nat|intros [st1 x] Hx]. destruct x; [|apply le3_refl].
      apply le3_bind2; [apply (ol_len L)|intros; apply le3_refl].
    Qed.

    Lemma read_nat : forall n st, le3 (w_src_read d ds o n st) (src_read ds o' n st).
    Proof.
      intros n st. unfold w_src_read, src_read, src_len. apply le3_bind2; [apply (ol_len L)|intros l Hl].
      apply le3_bind; [destruct (l <? n); [apply requested_nat|apply le3_refl]|intros [st1 x] Hx]. destruct x; [|apply le3_refl].
      apply le3_bind2; [apply (ol_deref L)|intros dt Hd]. apply le3_bind2; [apply (ol_consume L)|intros; apply le3_refl].
    Qed.

    Lemma fill_buf_nat : forall st, le3 (w_src_fill_buf d ds o st) (src_fill_buf ds o' st).
    Proof.
      intros st. unfold w_src_fill_buf, src_fill_buf, src_capacity, src_view. rewrite (ol_capacity L). apply le3_bind; [apply requested_nat|intros [st1 x] Hx].
      destruct x; [|apply le3_refl]. apply le3_bind2; [apply (ol_deref L)|intros; apply le3_refl].
    Qed.

    Lemma parse_nat : forall T E (p : parser I T E) st, le3 (w_src_parse d ds o p st) (src_parse ds o' p st).
    Proof.
      intros T E p st. unfold w_src_parse, src_parse. apply le3_bind; [destruct (src_incomplete st && src_auto st); [apply fill_nat|apply le3_refl]|intros [st1 x] Hx].
      destruct x; [|apply le3_refl]. apply le3_bind2; [apply (is_empty_builds L)|intros e He]. destruct e; [apply le3_refl|].
      apply le3_bind2; [apply (ol_deref L)|intros dt Hd].
      destruct (p (mkInput (src_eoi st1) dt)); try apply le3_refl; (apply le3_bind2; [apply (ol_len L)|intros l Hl]).
      - apply le3_bind2; [apply sub_nat|intros k Hk]. apply le3_bind2; [apply (ol_consume L)|intros; apply le3_refl].
      - apply le3_bind2; [apply sub_nat|intros k Hk]. apply le3_bind2; [apply (ol_consume L)|intros; apply le3_refl].
      - apply add_then3. apply le3_refl.
    Qed.
  End SourceNat.
End Builds.

(** * Numbers that fit *)
Lemma add_fits : forall m a b, a + b < w_size m -> w_add m a b = Done (a + b).
Proof. intros m a b H. unfold w_add. apply Nat.ltb_lt in H. rewrite H. reflexivity. Qed.
Lemma sub_fits : forall m a b, b <= a -> w_sub m a b = Done (a - b).
Proof. intros m a b H. unfold w_sub. apply Nat.leb_le in H. rewrite H. reflexivity. Qed.
Lemma usize_sub_inv : forall a b c, usize_sub a b = Done c -> b <= a /\ c = a - b.
Proof. intros a b c H. unfold usize_sub in H. destruct (Nat.leb_spec b a); inversion H; auto. Qed.
Lemma assert_inv : forall c u, assert c = Done u -> c = true.
Proof. intros [|] u H; [reflexivity|discriminate]. Qed.
Lemma bind_inv : forall A B (r : run A) (f : A -> run B) b, run_bind r f = Done b -> exists a, r = Done a /\ f a = Done b.
Proof. intros A B [a| | |] f b H; try discriminate. eauto. Qed.
Lemma sum_assert : forall m a b c, a + b <= c -> c < w_size m -> w_debug_assert_sum m a b c = Done tt.
Proof.
  intros m a b c H Hc. unfold w_debug_assert_sum. destruct (w_debug m); [|reflexivity]. rewrite add_fits by lia. cbn [run_bind]. apply assert_true, Nat.leb_le, H.
Qed.

(** [o] on the machine does what [o'] does, as long as the results are [small]; [inv] are the states the buffer can be in. *)
Record ops_fit {I B} (m : machine) (o o' : buffer_ops I B) (inv small : B -> Prop) : Prop := mkOpsFit {
  of_deref : forall b, op_deref o b = op_deref o' b;
  of_capacity : forall b, op_capacity o b = op_capacity o' b;
  of_len : forall b l, inv b -> small b -> op_len o' b = Done l -> op_len o b = Done l /\ l < w_size m;
  of_fill : forall St (ds : data_source St I) b s b' s' r, inv b -> op_fill o' ds b s = Done (b', s', r) ->
    inv b' /\ (small b' -> small b /\ op_fill o ds b s = Done (b', s', r)) /\
    match r with IoOk n => forall l, op_len o' b = Done l -> op_len o' b' = Done (l + n) | IoErr _ => True end;
  of_request : forall b n b', inv b -> op_request_space o' b n = Done b' ->
    inv b' /\ (small b' -> small b /\ op_request_space o b n = Done b') /\ forall l, op_len o' b = Done l -> op_len o' b' = Done l;
  of_consume : forall b n b', inv b -> op_consume o' b n = Done b' -> inv b' /\ (small b' -> small b /\ op_consume o b n = Done b') }.

Ltac unbind :=
  repeat match goal with
  | H : run_bind _ _ = Done _ |- _ => let a := fresh "a" in let Ha := fresh "Ha" in apply bind_inv in H; destruct H as (a & Ha & H)
  | H : usize_sub _ _ = Done _ |- _ => apply usize_sub_inv in H; destruct H as [? H]; try subst
  | H : assert _ = Done _ |- _ => apply assert_inv in H; rewrite ?andb_true_iff, ?Nat.leb_le, ?Nat.ltb_lt in H
  end.

Lemma mem_length : forall I (w m : memory I) k, length (firstn k m ++ overwrite w (skipn k m)) = length m.
Proof. intros. rewrite app_length, overwrite_length, <- app_length, firstn_skipn. reflexivity. Qed.

Lemma copy_length : forall I (m m' : memory I) a b, copy_down m a b = Done m' -> length m' = length m.
Proof.
  intros I m m' a b H. unfold copy_down in H. destruct (Nat.leb_spec (a + b) (length m)); [|discriminate]. inversion H; subst.
  rewrite app_length, firstn_length, !skipn_length. lia.
Qed.

Definition fixed_ok {I} (b : fixed I) : Prop := f_used b <= f_populated b /\ f_populated b <= length (f_mem b).
Definition growing_ok {I} (b : growing I) : Prop := g_used b <= g_populated b /\ g_populated b <= length (g_mem b) /\ length (g_mem b) <= g_cap b.

Section Fit.
  Variable m : machine.
  Hypothesis P : platform m.

  Lemma fixed_fit : forall I, ops_fit m (w_fixed_ops I m) (fixed_ops I) fixed_ok (fun b => length (f_mem b) <= w_alloc m).
  Proof.
    unfold platform in P. intros I. split; cbn [w_fixed_ops fixed_ops op_deref op_fill op_request_space op_consume op_len op_capacity]; auto; unfold fixed_ok.
    - intros b l [Hu Hp] Hs H. unfold fixed_len, w_fixed_len in *. unbind. rewrite sub_fits by lia. split; [reflexivity|lia].
    - intros St ds b s b' s' r [Hu Hp] H. unfold fixed_fill, w_fixed_fill, fixed_len in *. unbind. rewrite assert_true by (apply Nat.leb_le; assumption). cbn [run_bind].
      destruct (ds_read ds s _) as [[s1 w] [n|e]]; unbind; inversion H; subst; clear H; cbn [f_mem f_populated f_used]; rewrite ?mem_length in *.
      + repeat split; try lia.
        * rewrite sum_assert by lia. cbn [run_bind]. rewrite add_fits by lia. reflexivity.
        * intros l Hl. unbind. rewrite usize_sub_ok by lia. f_equal. lia.
      + repeat split; auto.
    - intros b n b' [Hu Hp] H. unfold fixed_request_space, w_fixed_request_space, fixed_len in *. unbind. rewrite assert_true by (apply Nat.leb_le; assumption). cbn [run_bind].
      rewrite sub_fits by lia. cbn [run_bind]. destruct (_ <? n); unbind.
      + match goal with Hc : copy_down _ _ _ = Done _ |- _ => rename Hc into Hm end.
        inversion H; subst; clear H. cbn [f_mem f_populated f_used]. rewrite sub_fits by lia. cbn [run_bind]. rewrite Hm. cbn [run_bind].
        rewrite (copy_length _ _ _ Hm). repeat split; auto; try lia. intros l Hl. unbind. rewrite usize_sub_ok by lia. f_equal. lia.
      + inversion H; subst. repeat split; auto.
    - intros b n b' [Hu Hp] H. unfold fixed_consume, w_fixed_consume in *. unbind. inversion H; subst; clear H. cbn [f_mem f_populated f_used] in *.
      repeat split; auto; try lia. rewrite sum_assert by lia. cbn [run_bind]. rewrite add_fits by lia. reflexivity.
  Qed.

  Lemma reserve_ok : forall I (b : growing I) n, growing_ok b -> let b' := growing_set_len (growing_reserve b n) in
    growing_ok b' /\ length (g_mem b') = g_cap b' /\ g_cap b <= g_cap b' /\ length (g_mem b) + n <= g_cap b' /\ g_populated b' = g_populated b /\ g_used b' = g_used b /\
    (g_cap b' <= w_alloc m -> w_growing_reserve m b n = Done (growing_reserve b n)).
  Proof.
    unfold growing_ok. intros I b n (Hu & Hp & Hb). unfold w_growing_reserve, growing_set_len, growing_reserve.
    destruct (Nat.leb_spec n (g_cap b - length (g_mem b))); cbn [g_mem g_cap g_populated g_used]; rewrite app_length, repeat_length; repeat split; try lia.
    intros Hc. rewrite assert_true by (apply Nat.leb_le; assumption). reflexivity.
  Qed.

  Lemma growing_fit : forall I, ops_fit m (w_growing_ops I m) (growing_ops I) growing_ok (fun b => g_cap b <= w_alloc m).
  Proof.
    unfold platform in P. intros I. split; cbn [w_growing_ops growing_ops op_deref op_fill op_request_space op_consume op_len op_capacity]; auto.
    - intros b l (Hu & Hp & Hc) Hs H. unfold growing_len, w_growing_len in *. unbind. rewrite sub_fits by lia. split; [reflexivity|lia].
    - intros St ds b s b' s' r (Hu & Hp & Hc) H. unfold growing_ok, growing_fill, w_growing_fill, growing_len in *. unbind. rewrite assert_true by (apply Nat.leb_le; assumption). cbn [run_bind].
      destruct (ds_read ds s _) as [[s1 w] [n|e]]; unbind; inversion H; subst; clear H; cbn [g_mem g_cap g_populated g_used]; rewrite ?mem_length in *.
      + repeat split; try lia.
        * rewrite sum_assert by lia. cbn [run_bind]. rewrite add_fits by lia. reflexivity.
        * intros l Hl. unbind. rewrite usize_sub_ok by lia. f_equal. lia.
      + repeat split; auto.
    - intros b n b' Hb H. unfold growing_request_space, w_growing_request_space in *. destruct (_ && _); [inversion H; subst; auto|].
      pose proof Hb as (Hu & Hp & Hc). unfold growing_len, w_growing_len in *. rewrite usize_sub_ok in H by assumption. cbn [run_bind] in H.
      remember (if g_cap b <? n + (g_populated b - g_used b) then growing_set_len (growing_reserve b n) else b) as b1 eqn:E.
      assert (H1 : growing_ok b1 /\ g_cap b <= g_cap b1 /\ g_populated b1 = g_populated b /\ g_used b1 = g_used b /\
        (g_cap b1 <= w_alloc m -> n + (g_populated b - g_used b) < w_size m)).
      { subst b1. destruct (Nat.ltb_spec (g_cap b) (n + (g_populated b - g_used b))); [|repeat split; auto; lia].
        destruct (reserve_ok n Hb) as (A1 & A2 & A3 & A4 & A5 & A6 & _). repeat (split; auto); lia. }
      destruct H1 as (A1 & A2 & A3 & A4 & A5).
      assert (G : forall k, g_cap b1 <= w_alloc m ->
        (let! b := (if g_cap b <? n + (g_populated b - g_used b) then let! b := w_growing_reserve m b n in Done (growing_set_len b) else Done b) in k b) = (k b1 : run (growing I))).
      { intros k Hk. subst b1. destruct (g_cap b <? n + (g_populated b - g_used b)); [|reflexivity].
        destruct (reserve_ok n Hb) as (_ & _ & _ & _ & _ & _ & Hw). rewrite Hw by assumption. reflexivity. }
      pose proof A1 as (B1 & B2 & B3). rewrite usize_sub_ok in H by assumption. cbn [run_bind] in H. rewrite sub_fits by assumption. cbn [run_bind].
      destruct (Nat.ltb_spec (length (g_mem b1) - g_populated b1) n) as [Hlt|Hge].
      + rewrite usize_sub_ok in H by assumption. cbn [run_bind] in H. apply bind_inv in H. destruct H as (mem & Hmem & H). inversion H; subst b'; clear H.
        pose proof (copy_length _ _ _ Hmem) as Hml. split; [|split].
        * unfold growing_ok. cbn [g_mem g_cap g_populated g_used]. lia.
        * cbn [g_cap]. intros Hs. split; [lia|]. rewrite add_fits by (apply A5; assumption). cbn [run_bind]. rewrite G by assumption.
          rewrite sub_fits by assumption. cbn [run_bind]. apply Nat.ltb_lt in Hlt. rewrite Hlt. rewrite sub_fits by assumption. cbn [run_bind]. rewrite Hmem. reflexivity.
        * intros l Hl. cbn [g_populated g_used]. unbind. rewrite usize_sub_ok by lia. f_equal. lia.
      + inversion H; subst b'; clear H. split; [assumption|split].
        * intros Hs. split; [lia|]. rewrite add_fits by (apply A5; assumption). cbn [run_bind]. rewrite G by assumption.
          rewrite sub_fits by assumption. cbn [run_bind]. apply Nat.ltb_ge in Hge. rewrite Hge. reflexivity.
        * intros l Hl. rewrite A3, A4. assumption.
    - intros b n b' (Hu & Hp & Hc) H. unfold growing_ok, growing_consume, w_growing_consume in *. unbind. inversion H; subst; clear H. cbn [g_mem g_cap g_populated g_used] in *.
      repeat split; auto; try lia. rewrite sum_assert by lia. cbn [run_bind]. rewrite add_fits by lia. reflexivity.
  Qed.

  Section SourceFit.
    Context {St I B : Type}.
    Variable ds : data_source St I.
    Variables (o o' : buffer_ops I B) (inv small : B -> Prop).
    Hypothesis F : ops_fit m o o' inv small.

    Lemma len_fit : forall b l, inv b -> small b -> op_len o' b = Done l -> op_len o b = Done l.
    Proof. intros b l Hi Hs H. apply (of_len F _ Hi Hs H). Qed.

    Lemma loop_fit : forall fuel fuel' q n b s b' s' r l, fuel <= fuel' -> inv b -> op_len o' b = Done l -> n <= l -> fill_loop ds o' fuel q n b s = Done (b', s', r) ->
      inv b' /\ (small b' -> small b /\ w_fill_loop m ds o fuel' q n b s = Done (b', s', r)).
    Proof.
      induction fuel as [|fuel IH]; intros fuel' q n b s b' s' r l Hf Hi Hl Hn H; [discriminate|]. destruct fuel' as [|fuel']; [lia|].
      cbn [fill_loop w_fill_loop] in *. rewrite Hl in H. cbn [run_bind] in H. destruct (l <? q) eqn:Eq.
      - apply bind_inv in H. destruct H as ([[b1 s1] x] & Hx & H). destruct (of_fill F ds b s Hi Hx) as (Hi1 & Hs1 & Hl1).
        destruct x as [[|k]|e].
        + inversion H; subst. split; auto. intros Hs. destruct (Hs1 Hs) as [Hsb Hw]. split; auto. rewrite (len_fit Hi Hsb Hl). cbn [run_bind]. rewrite Eq, Hw. reflexivity.
        + specialize (Hl1 _ Hl). destruct (IH fuel' q (n + S k) b1 s1 b' s' r (l + S k)) as [Hi' Hs']; auto; try lia.
          split; auto. intros Hs. destruct (Hs' Hs) as [Hsb1 Hw']. destruct (Hs1 Hsb1) as [Hsb Hw]. split; auto.
          rewrite (len_fit Hi Hsb Hl). cbn [run_bind]. rewrite Eq, Hw. cbn [run_bind]. destruct (of_len F _ Hi1 Hsb1 Hl1) as [_ Hlt].
          rewrite add_fits by lia. cbn [run_bind]. exact Hw'.
        + inversion H; subst. split; auto. intros Hs. destruct (Hs1 Hs) as [Hsb Hw]. split; auto. rewrite (len_fit Hi Hsb Hl). cbn [run_bind]. rewrite Eq, Hw. reflexivity.
      - inversion H; subst. split; auto. intros Hs. split; auto. rewrite (len_fit Hi Hs Hl). cbn [run_bind]. rewrite Eq. reflexivity.
    Qed.

    Definition st_inv (st : src St B) := inv (src_buffer st).
    Definition st_small (st : src St B) := small (src_buffer st).

    Lemma requested_fit : forall q st st' r, st_inv st -> fill_requested ds o' q st = Done (st', r) ->
      st_inv st' /\ src_request st' = src_request st /\ (st_small st' -> st_small st /\ w_fill_requested m ds o q st = Done (st', r)).
    Proof.
      unfold st_inv, st_small. intros q st st' r Hi H. unfold fill_requested, w_fill_requested in *. apply bind_inv in H. destruct H as (l & Hl & H).
      destruct (Nat.ltb_spec l q) as [Hlt|Hge].
      - apply bind_inv in H. destruct H as (k & Hk & H). apply usize_sub_inv in Hk. destruct Hk as [Hk1 Hk2].
        apply bind_inv in H. destruct H as (b & Hb & H). apply bind_inv in H. destruct H as ([[b1 s1] x] & Hx & H). inversion H; subst st' x; clear H.
        cbn [src_with src_buffer src_request]. destruct (of_request F _ _ Hi Hb) as (Hib & Hsb & Hlb).
        destruct (@loop_fit (S k) (S (k + op_capacity o b)) q 0 b (src_source st) b1 s1 r l) as [Hi1 Hs1]; auto; try lia.
        split; auto. split; auto. intros Hs. destruct (Hs1 Hs) as [Hs2 Hw]. destruct (Hsb Hs2) as [Hs3 Hw3]. split; auto.
        rewrite (len_fit Hi Hs3 Hl). cbn [run_bind]. apply Nat.ltb_lt in Hlt. rewrite Hlt. rewrite sub_fits by assumption. cbn [run_bind]. subst k. rewrite Hw3. cbn [run_bind].
        rewrite Hw. reflexivity.
      - inversion H; subst. split; auto. split; auto. intros Hs. split; auto. rewrite (len_fit Hi Hs Hl). cbn [run_bind]. apply Nat.ltb_ge in Hge. rewrite Hge. reflexivity.
    Qed.

    Lemma fill_fit : forall st st' r, st_inv st -> src_fill ds o' st = Done (st', r) ->
      st_inv st' /\ src_request st' = src_request st /\ (st_small st' -> st_small st /\ w_src_fill m ds o st = Done (st', r)).
    Proof.
      intros st st' r Hi H. unfold src_fill, w_src_fill in *. apply bind_inv in H. destruct H as ([st1 x] & Hx & H).
      destruct (requested_fit _ Hi Hx) as (Hi1 & Hr1 & Hs1). unfold st_inv, st_small in *. destruct x as [n|e].
      - apply bind_inv in H. destruct H as (l & Hl & H). inversion H; subst; clear H. cbn [src_buffer src_request]. split; auto. split; auto.
        intros Hs. destruct (Hs1 Hs) as [Hs2 Hw]. split; auto. rewrite Hw. cbn [run_bind]. rewrite (len_fit Hi1 Hs Hl). reflexivity.
      - inversion H; subst. split; auto. split; auto. intros Hs. destruct (Hs1 Hs) as [Hs2 Hw]. split; auto. rewrite Hw. reflexivity.
    Qed.

    Lemma consume_fit : forall n st st', st_inv st -> src_consume o' n st = Done st' ->
      st_inv st' /\ src_request st' = src_request st /\ (st_small st' -> st_small st /\ src_consume o n st = Done st').
    Proof.
      unfold st_inv, st_small. intros n st st' Hi H. unfold src_consume in *. apply bind_inv in H. destruct H as (b & Hb & H). inversion H; subst; clear H.
      cbn [src_with src_buffer src_request]. destruct (of_consume F _ _ Hi Hb) as [Hib Hs]. split; auto. split; auto. intros H. destruct (Hs H) as [Hs1 Hw].
      split; auto. rewrite Hw. reflexivity.
    Qed.

    Lemma read_fit : forall n st st' r, st_inv st -> src_read ds o' n st = Done (st', r) ->
      st_inv st' /\ src_request st' = src_request st /\ (st_small st' -> st_small st /\ w_src_read m ds o n st = Done (st', r)).
    Proof.
      intros n st st' r Hi H. unfold src_read, w_src_read, src_len in *. apply bind_inv in H. destruct H as (l & Hl & H).
      apply bind_inv in H. destruct H as ([st1 x] & Hx & H).
      assert (H1 : st_inv st1 /\ src_request st1 = src_request st /\ (st_small st1 -> st_small st /\
        (if l <? n then w_fill_requested m ds o n st else Done (st, IoOk 0)) = Done (st1, x))).
      { destruct (l <? n); [apply requested_fit; assumption|inversion Hx; subst; auto]. }
      destruct H1 as (Hi1 & Hr1 & Hs1). destruct x as [k|e].
      - apply bind_inv in H. destruct H as (dt & Hd & H). apply bind_inv in H. destruct H as (b & Hb & H). inversion H; subst; clear H.
        unfold st_inv, st_small in *. cbn [src_with src_buffer src_request]. destruct (of_consume F _ _ Hi1 Hb) as [Hib Hs]. split; auto. split; auto. intros H.
        destruct (Hs H) as [Hs2 Hw2]. destruct (Hs1 Hs2) as [Hs3 Hw3]. split; auto. rewrite (len_fit Hi Hs3 Hl). cbn [run_bind]. rewrite Hw3. cbn [run_bind].
        rewrite (of_deref F), Hd. cbn [run_bind]. rewrite Hw2. reflexivity.
      - inversion H; subst; clear H. split; auto. split; auto. intros H. destruct (Hs1 H) as [Hs3 Hw3]. split; auto. unfold st_small, st_inv in *. rewrite (len_fit Hi Hs3 Hl). cbn [run_bind].
        rewrite Hw3. reflexivity.
    Qed.

    Lemma fill_buf_fit : forall st st' r, st_inv st -> src_fill_buf ds o' st = Done (st', r) ->
      st_inv st' /\ src_request st' = src_request st /\ (st_small st' -> st_small st /\ w_src_fill_buf m ds o st = Done (st', r)).
    Proof.
      intros st st' r Hi H. unfold src_fill_buf, w_src_fill_buf, src_capacity, src_view in *. rewrite (of_capacity F). apply bind_inv in H. destruct H as ([st1 x] & Hx & H).
      destruct (requested_fit _ Hi Hx) as (Hi1 & Hr1 & Hs1). destruct x as [k|e].
      - apply bind_inv in H. destruct H as (dt & Hd & H). inversion H; subst; clear H. split; auto. split; auto. intros H. destruct (Hs1 H) as [Hs3 Hw3]. split; auto.
        rewrite Hw3. cbn [run_bind]. rewrite (of_deref F), Hd. reflexivity.
      - inversion H; subst; clear H. split; auto. split; auto. intros H. destruct (Hs1 H) as [Hs3 Hw3]. split; auto. rewrite Hw3. reflexivity.
    Qed.

    Lemma parse_fit : forall T E (p : parser I T E) st st' r, st_inv st -> src_parse ds o' p st = Done (st', r) ->
      st_inv st' /\ (st_small st' -> src_request st' < w_size m -> st_small st /\ w_src_parse m ds o p st = Done (st', r)).
    Proof.
      intros T E p st st' r Hi H. unfold src_parse, w_src_parse in *. apply bind_inv in H. destruct H as ([st1 x] & Hx & H).
      assert (H1 : st_inv st1 /\ src_request st1 = src_request st /\ (st_small st1 -> st_small st /\
        (if src_incomplete st && src_auto st then w_src_fill m ds o st else Done (st, IoOk 0)) = Done (st1, x))).
      { destruct (_ && _); [apply fill_fit; assumption|inversion Hx; subst; auto]. }
      destruct H1 as (Hi1 & Hr1 & Hs1). unfold st_inv, st_small in *. destruct x as [k|e].
      2:{ inversion H; subst; clear H. split; auto. intros H _. destruct (Hs1 H) as [Hs3 Hw3]. split; auto. rewrite Hw3. reflexivity. }
      apply bind_inv in H. destruct H as (e & He & H).
      assert (He' : small (src_buffer st1) -> src_is_empty o st1 = Done e).
      { intros Hs. unfold src_is_empty, src_len in *. destruct (src_eoi st1); auto. apply bind_inv in He. destruct He as (l & Hl & He). rewrite (len_fit Hi1 Hs Hl). exact He. }
      destruct e.
      { inversion H; subst; clear H. split; auto. intros H _. destruct (Hs1 H) as [Hs3 Hw3]. split; auto. rewrite Hw3. cbn [run_bind]. rewrite He' by assumption. reflexivity. }
      apply bind_inv in H. destruct H as (dt & Hd & H). rewrite <- (of_deref F) in Hd.
      destruct (p (mkInput (src_eoi st1) dt)) as [j v|b0 er|n| |] eqn:Ep; try discriminate; apply bind_inv in H; destruct H as (l & Hl & H).
      1, 2: apply bind_inv in H; destruct H as (k' & Hk & H); apply usize_sub_inv in Hk; destruct Hk as [Hk1 Hk2];
        apply bind_inv in H; destruct H as (b & Hb & H); inversion H; subst; clear H; cbn [src_with src_buffer src_request];
        destruct (of_consume F _ _ Hi1 Hb) as [Hib Hs]; split; auto; intros H _; destruct (Hs H) as [Hs2 Hw2]; destruct (Hs1 Hs2) as [Hs3 Hw3]; split; auto;
        rewrite Hw3; cbn [run_bind]; rewrite He' by assumption; cbn [run_bind]; rewrite Hd; cbn [run_bind]; rewrite Ep; rewrite (len_fit Hi1 Hs2 Hl); cbn [run_bind];
        rewrite sub_fits by assumption; cbn [run_bind]; rewrite Hw2; reflexivity.
      assert (Hst : src_buffer st' = src_buffer st1 /\ src_request st' = l + n) by (destruct (src_eoi st1); inversion H; subst; auto).
      destruct Hst as [Hst1 Hst2]. rewrite Hst1. split; auto. intros Hs Hq. destruct (Hs1 Hs) as [Hs3 Hw3]. split; auto.
      rewrite Hw3; cbn [run_bind]; rewrite He' by assumption; cbn [run_bind]; rewrite Hd; cbn [run_bind]; rewrite Ep. destruct (of_len F _ Hi1 Hs Hl) as [Hl' Hlt].
      rewrite Hl'. cbn [run_bind]. rewrite add_fits by lia. exact H.
    Qed.
  End SourceFit.
End Fit.
