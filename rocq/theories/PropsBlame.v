(** Property theorems C72: where failures come from. *)
From Coq Require Import List Bool Arith Lia.
From Verif Require Import Base Parsers Combinators Buffer Stream SpecBase SpecSafe SpecStream SpecIter SpecLaws BaseProofs SafeProofs StableProofs BufferProofs SpecPeg Peg PegProofs PegTotal
  SpecBlame BlameProofs PropsPeg.
Import ListNotations.

Set Implicit Arguments.

(** A failure has one cause, which is an item or a literal that does not match a rest of the text. *)
Theorem C72_cause : forall I eqb (g : nat -> peg I) e s,
  ((exists d, derives eqb g e s None d) <-> exists q u, blames eqb g e s q u) /\
  (forall q u q' u', blames eqb g e s q u -> blames eqb g e s q' u' -> q = q' /\ u = u') /\
  (forall q u, blames eqb g e s q u -> (exists d, derives eqb g q u None d) /\ ((exists f, q = Sat f) \/ (exists w, q = Lit w)) /\ exists x, s = x ++ u).
Proof.
  intros I eqb g e s. split; [|split].
  - split; [intros [d D]; exact (fails_blames D eq_refl)|intros (q & u & H); exact (blames_fails H)].
  - intros q u q' u' H H'. eapply blames_unique; eauto.
  - intros q u H. destruct (blames_leaf H) as (D & Hq & Hs). split; [exact D|]. split; [|exact Hs]. destruct q; try contradiction; eauto.
Qed.
Print Assumptions C72_cause.

(** What the whole parser reports is what the cause reports: the error and its place, or the number of missing items. *)
Theorem C72_report : forall I v eqb (g : nat -> peg I) e s q u, blames eqb g e s q u ->
  exists res, reports eqb v q u res /\ (forall res', reports eqb v q u res' -> res' = res) /\ settles (fun f => peg_parser v eqb g f e (mkInput true s)) res.
Proof.
  intros I v eqb g e s q u H. destruct (blames_same v H) as (res & f0 & Hr & Hf). exists res. split; [exact Hr|]. split.
  - intros res' Hr'. rewrite <- (reports_comp g true 0 Hr), <- (reports_comp g true 0 Hr'). reflexivity.
  - split; [|eauto]. destruct Hr; try discriminate. destruct v; discriminate.
Qed.
Print Assumptions C72_report.

(** So it is while more input may come, if what is looked at is there; what follows only appears behind the place. *)
Theorem C72_stream : forall I v eqb (g : nat -> peg I) e s d q u, derives eqb g e s None d -> d <= length s -> blames eqb g e s q u ->
  exists b x, reports eqb v q u (Error b x) /\ forall l c, settles (fun f => peg_parser v eqb g f e (mkInput l (s ++ c))) (Error (b ++ c) x).
Proof.
  intros I v eqb g e s d q u D Hd H. destruct (blames_same v H) as (res & f0 & Hr & Hf). destruct (proj1 (derives_does v eqb g) _ _ _ _ D) as [f1 H1].
  set (f := f0 + f1). destruct (H1 f ltac:(lia)) as (_ & H2 & _). destruct (H2 Hd false []) as (b & x & E). rewrite app_nil_r in E.
  pose proof (safe_stable (comp_safe v eqb g f e)) as St.
  pose proof (St s true []) as U. rewrite E in U. cbn in U. rewrite !app_nil_r, Hf in U by lia. subst res. exists b, x. split; [exact Hr|].
  intros l c. pose proof (St s l c) as U. rewrite E in U. cbn in U. rewrite <- U. apply comp_settles. rewrite U. discriminate.
Qed.
Print Assumptions C72_stream.

(** And a stream stands at that place afterwards; it has not moved if items were missing. *)
Theorem C72_stands : forall I v eqb (g : nat -> peg I) e data pos q u, pos < length data -> blames eqb g e (skipn pos data) q u ->
  (forall b x, reports eqb v q u (Error b x) -> exists f0, forall f, f0 <= f ->
     slice_parse (peg_parser v eqb g f e) (mkSliceStream pos data) = Done (mkSliceStream (length data - length b) data, inr (SParseError b x)) /\
     skipn (length data - length b) data = b) /\
  (forall n, reports eqb v q u (Incomplete n) -> exists f0, forall f, f0 <= f ->
     slice_parse (peg_parser v eqb g f e) (mkSliceStream pos data) = Done (mkSliceStream pos data, inr (SIncomplete (n + (length data - pos))))).
Proof.
  intros I v eqb g e data pos q u Hpos H. destruct (C72_report v H) as (res & Hr & Hu & _ & f0 & Hf).
  unfold slice_parse, slice_is_empty, slice_len, usize_sub. cbn [ss_pos ss_slice]. destruct (Nat.leb_spec pos (length data)); [|lia]. cbn [run_bind].
  destruct (Nat.eqb_spec (length data - pos) 0); [lia|]. split.
  - intros b x Hb. exists f0. intros f Hge. rewrite Hf by assumption. rewrite <- (Hu _ Hb).
    assert (Hw : suffix b (skipn pos data)).
    { pose proof (built_well_behaved (safe_built (comp_safe v eqb g f0 e)) (mkInput true (skipn pos data))) as Hh. rewrite (Hf f0 (le_n _)), <- (Hu _ Hb) in Hh. exact Hh. }
    destruct Hw as [y Hy]. pose proof (f_equal (@length I) Hy) as Hl. rewrite skipn_length, app_length in Hl. cbn [run_bind].
    destruct (Nat.leb_spec (length b) (length data - pos)); [|lia]. cbn [run_bind]. split; [f_equal; f_equal; f_equal; lia|].
    replace (length data - length b) with (length y + pos) by lia. rewrite <- skipn_skipn, Hy. rewrite skipn_app, skipn_all, Nat.sub_diag. reflexivity.
  - intros n0 Hn. exists f0. intros f Hge. rewrite Hf by assumption. rewrite <- (Hu _ Hn). reflexivity.
Qed.
Print Assumptions C72_stands.

(** * Cases *)

(** An unclosed bracket: the closing bracket is missing. *)
Example C72_case : blames Nat.eqb brackets (Rule 0) [1; 5] (Lit [2]) [] /\ reports Nat.eqb true (Lit [2]) [] (Incomplete 1).
Proof.
  split; [|apply r_lit_end; auto]. apply b_rule. cbn [brackets]. pose proof (sound true Nat.eqb brackets 20 (Lit [1]) true [1; 5]) as H1. vm_compute in H1. destruct H1 as (_ & d1 & D1 & _).
  pose proof (sound true Nat.eqb brackets 20 (Star (Rule 1)) true [5]) as H2. vm_compute in H2. destruct H2 as (_ & d2 & D2 & _).
  eapply b_seq2; [exact D1|]. eapply b_then2; [exact D2|]. eapply (b_lit (d := 1)). apply (@d_lit_not nat Nat.eqb brackets [2] []).
  intros x y E H. inversion H as [|? ? ? ? Hx]; subst. discriminate.
Qed.
(** A wrong item in an inner bracket: it is the outer closing bracket that is blamed, before the inner bracket. *)
Example C72_case_inner : blames Nat.eqb brackets (Rule 0) [1; 5; 1; 0; 2; 2] (Lit [2]) [1; 0; 2; 2] /\
  reports Nat.eqb true (Lit [2]) [1; 0; 2; 2] (Error [1; 0; 2; 2] (EString [2])) /\ reports Nat.eqb false (Lit [2]) [1; 0; 2; 2] (Error [1; 0; 2; 2] EPlain).
Proof.
  assert (Hd : first_difference Nat.eqb [2] [1] 0) by (exists 2, 1; repeat split; intros; lia).
  split; [|split; [exact (@r_lit nat Nat.eqb true [2] [1] [0; 2; 2] 0 eq_refl Hd)|exact (@r_lit nat Nat.eqb false [2] [1] [0; 2; 2] 0 eq_refl Hd)]].
  apply b_rule. cbn [brackets]. pose proof (sound true Nat.eqb brackets 20 (Lit [1]) true [1; 5; 1; 0; 2; 2]) as H1. vm_compute in H1. destruct H1 as (_ & d1 & D1 & _).
  pose proof (sound true Nat.eqb brackets 20 (Star (Rule 1)) true [5; 1; 0; 2; 2]) as H2. vm_compute in H2. destruct H2 as (_ & d2 & D2 & _).
  eapply b_seq2; [exact D1|]. eapply b_then2; [exact D2|]. eapply (b_lit (d := 1)). apply (@d_lit_not nat Nat.eqb brackets [2] [1; 0; 2; 2]).
  intros x y E H. inversion H as [|? ? ? ? Hx]; subst. inversion E; subst. discriminate.
Qed.
