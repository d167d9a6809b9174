(** Proofs about the loop of examples/http_parser.rs. *)
From Coq Require Import List Bool Arith Lia.
From Coq.Init Require Import Byte.
From Verif Require Import Base Parsers Combinators Ascii Buffer Stream SpecBase SpecSafe SpecBuffer SpecStream Http SpecHttp
  BufferProofs StreamProofs SimProofs HttpProofs.
Import ListNotations.

Set Implicit Arguments.

Section Loop.
  Variable verbose : bool.
  Notation request := (request verbose).

  Lemma messages_cons : forall w q data qs, message w q -> messages data qs -> messages (w ++ data) (q :: qs).
  Proof. intros w q data qs H (ws & -> & Hws). exists (w :: ws). split; [reflexivity|constructor; assumption]. Qed.

  (** The first message of a sequence is what the parser reads. *)
  Lemma messages_data : forall data qs j q, messages data qs -> request (mkInput true data) = Data j q -> exists qs', qs = q :: qs' /\ messages (buf j) qs'.
  Proof.
    intros data qs j q (ws & -> & Hws) H. destruct Hws as [|w q' ws qs Hw Hws]; [discriminate|]. cbn [concat] in H. rewrite (request_takes verbose Hw) in H. inversion H; subst.
    exists qs. split; [reflexivity|]. exists ws. auto.
  Qed.
  Lemma messages_unique : forall data qs, messages data qs -> forall qs', messages data qs' -> qs = qs'.
  Proof.
    intros data qs (ws & -> & Hws). induction Hws as [|w q ws qs Hw Hws IH]; intros qs' (ws' & He & Hws').
    - destruct Hws' as [|w' q' ws' qs' Hw' Hws']; [reflexivity|]. cbn [concat] in He. symmetry in He. apply app_eq_nil in He. destruct He as [He _]. apply message_ne in Hw'. contradiction.
    - destruct Hws' as [|w' q' ws' qs' Hw' Hws']; cbn [concat] in He; [apply app_eq_nil in He; destruct He as [He _]; apply message_ne in Hw; contradiction|].
      pose proof (request_takes verbose Hw true (concat ws)) as H1. rewrite He, (request_takes verbose Hw' true (concat ws')) in H1. inversion H1; subst. f_equal. apply IH. exists ws'. split; [congruence|assumption].
  Qed.

  (** * Suitability *)
  Lemma request_suits : forall (fits : nat -> Prop) ws qs, Forall2 message ws qs ->
    (forall w ws', ws = w :: ws' -> forall m, m <= length w -> fits m) -> fits 0 -> suits fits (concat ws) request.
  Proof.
    intros fits ws qs Hws Hf H0. split.
    - apply request_stable.
    - apply request_well_behaved.
    - intros i. apply (proj2 (@request_answers verbose _ i (le_n _))).
    - intros _. exists 1. reflexivity.
    - intros b c n He Hn. destruct Hws as [|w q ws qs Hw Hws]; [cbn [concat length]; rewrite Nat.min_0_r; assumption|].
      cbn [concat] in He. symmetry in He. apply app_eq_app in He. destruct He as (x & [[-> He]|[-> He]]).
      + pose proof (request_takes verbose Hw false x) as Ht. congruence.
      + destruct x as [|y x].
        { rewrite app_nil_r in *. pose proof (request_takes verbose Hw false []) as Ht. rewrite app_nil_r in Ht. congruence. }
        destruct (@request_prefix verbose _ _ _ Hw ltac:(discriminate)) as (n' & Hn' & Hle). rewrite Hn in Hn'. inversion Hn'; subst n'.
        eapply Hf; [reflexivity|]. rewrite app_length. lia.
  Qed.
  Lemma request_suits_all : forall (fits : nat -> Prop) data, (forall m, m <= length data -> fits m) -> suits fits data request.
  Proof.
    intros fits data Hf. split.
    - apply request_stable.
    - apply request_well_behaved.
    - intros i. apply (proj2 (@request_answers verbose _ i (le_n _))).
    - intros _. exists 1. reflexivity.
    - intros b c n He Hn. apply Hf. apply Nat.le_min_r.
  Qed.

  (** * As a program over a stream *)
  Fixpoint requests (n : nat) : script byte (request_t * list header_t) (error byte) :=
    match n with
    | 0 => Stop
    | S n => Next request (fun r => match r with inl _ => requests n | inr _ => Stop end)
    end.

  Lemma requests_slice : forall (fits : nat -> Prop) ws qs, Forall2 message ws qs -> Forall (fun w => forall m, m <= length w -> fits m) ws -> fits 0 ->
    forall s n, ss_pos s <= length (ss_slice s) -> rest_of s = concat ws ->
      script_suits fits s (requests n) /\ (length qs < n -> on_slice (requests n) s = Done (List.map inl qs ++ [inr SEndOfInput])).
  Proof.
    intros fits ws qs H. induction H as [|w q ws qs Hw Hws IH]; intros Hf H0 s n Hs Hr.
    - destruct n as [|n]; [split; [apply ss_stop|intros Hl; inversion Hl]|]. cbn [requests].
      destruct (slice_parse_spec s Hs (@request_well_behaved verbose)) as [[G1 G2]|[G1 _]]; [|contradiction].
      split; [|intros _; cbn [on_slice]; rewrite G2; reflexivity]. apply ss_next; [|intros s' r Hp; rewrite G2 in Hp; inversion Hp; subst; apply ss_stop].
      fold (rest_of s). rewrite Hr. apply (@request_suits fits [] []); auto. intros; discriminate.
    - destruct n as [|n]; [split; [apply ss_stop|intros Hl; inversion Hl]|]. cbn [requests]. inversion Hf as [|w' ws' Hf1 Hf2]; subst.
      assert (Hp : request (mkInput true (rest_of s)) = Data (mkInput true (concat ws)) q) by (rewrite Hr; apply (request_takes verbose Hw)).
      destruct (slice_parse_spec s Hs (@request_well_behaved verbose)) as [[G1 G2]|[_ [[G1 G2]|[[G1 G2]|(s' & out & G1 & G2 & G3 & G4)]]]]; try congruence.
      { rewrite Hr in G1. cbn [concat] in G1. apply app_eq_nil in G1. destruct G1 as [G1 _]. apply message_ne in Hw. contradiction. }
      rewrite Hp in G4. cbn [whole buf] in G4. destruct G4 as [G4 ->]. destruct (IH Hf2 H0 s' n G3 G4) as [IH1 IH2]. split.
      + apply ss_next; [|intros s2 r Hp2; rewrite G1 in Hp2; inversion Hp2; subst; exact IH1].
        fold (rest_of s). rewrite Hr. apply (@request_suits fits (w :: ws) (q :: qs)); auto. intros w2 ws2 He. inversion He; subst. assumption.
      + intros Hl. cbn [on_slice]. rewrite G1. cbn [run_bind forget]. rewrite IH2 by (cbn [length] in Hl; lia). reflexivity.
  Qed.

  Section Main.
    Context {St B : Type}.
    Variable ds : data_source St byte.
    Variables (ops : buffer_ops byte B) (inv : B -> Prop) (view : B -> list byte) (room : B -> nat) (fits : nat -> Prop).
    Hypothesis Q : queue_like ops inv view room fits.
    Hypothesis Ho : obeys ds.
    Variable R : St -> list byte -> nat -> Prop.
    Hypothesis HR : delivers ds R.
    Variable ok : list byte -> Prop.
    Hypothesis Hok : forall rest, ok rest -> suits fits rest request.
    Hypothesis Hnext : forall rest j q, ok rest -> request (mkInput true rest) = Data j q -> ok (buf j).

    Lemma main_spec : forall fuel st rest d n, stands inv view fits R st rest d 0 -> ok rest -> 2 * length rest + measure view st d 0 < fuel ->
      (exists qs, messages rest qs /\ main_loop verbose ds ops fuel st n = Done (n + length qs)) \/
      ((forall qs, ~ messages rest qs) /\ main_loop verbose ds ops fuel st n = Panicked).
    Proof.
      induction fuel as [|fuel IH]; intros st rest d n Hst Hr Hf; [lia|]. cbn [main_loop].
      destruct (parse_step Q Ho HR Hst (Hok Hr)) as [(st' & r & d' & e' & H1 & H2 & H3 & H4 & H5 & H6)|[(H1 & st' & d' & H2 & H3 & H4)|[(H1 & H2 & H3)|(H1 & st' & d' & out & rest' & out' & H2 & H3 & H4 & H5 & H6)]]].
      - rewrite H1. cbn [run_bind]. destruct H2 as [->|[_ H2]]; [|lia]. replace e' with 0 in * by lia. apply (IH _ _ _ n H3 Hr). lia.
      - rewrite H2. cbn [run_bind]. left. exists []. subst rest. split; [exists []; split; [reflexivity|constructor]|]. cbn [length]. rewrite Nat.add_0_r. reflexivity.
      - exfalso. exact (proj1 (@request_answers verbose _ (mkInput true rest) (le_n _)) H2).
      - rewrite H2. cbn [run_bind]. destruct (request (mkInput true rest)) as [j q|b e|m| |] eqn:Hp; cbn [whole] in H5; try contradiction; destruct H5 as [-> ->].
        + destruct out as [q'|[]]; cbn [same] in H6; try discriminate. inversion H6; subst q'. pose proof (@request_reads verbose _ _ _ Hp) as (_ & w & Hw & Hsplit). cbn [buf] in Hsplit.
          assert (Hne : w <> []) by (eapply message_ne; eauto).
          assert (Hlen : length (buf j) < length rest) by (rewrite Hsplit, app_length; destruct w; [contradiction|cbn [length]; lia]).
          assert (Hm : measure view st' d' 0 <= measure view st d 0 + 1) by (unfold measure; destruct (_ && _), (_ && _); lia).
          destruct (IH _ _ _ (S n) H3 (Hnext Hr Hp) ltac:(lia)) as [(qs & G1 & G2)|[G1 G2]].
          * left. exists (q :: qs). split; [rewrite Hsplit; apply messages_cons; assumption|]. rewrite G2. cbn [length]. f_equal. lia.
          * right. split; [|assumption]. intros qs Hqs. destruct (messages_data Hqs Hp) as (qs' & _ & Hqs'). exact (G1 _ Hqs').
        + right. split; [intros qs Hqs|destruct out as [|[]]; cbn [same] in H6; try discriminate; reflexivity].
          destruct Hqs as (ws & -> & Hws). destruct Hws as [|w q ws qs Hw Hws]; [apply H1; reflexivity|]. cbn [concat] in Hp. rewrite (request_takes verbose Hw) in Hp. discriminate.
        + right. split; [intros qs Hqs|destruct out as [|[]]; cbn [same] in H6; try discriminate; reflexivity].
          destruct Hqs as (ws & -> & Hws). destruct Hws as [|w q ws qs Hw Hws]; [apply H1; reflexivity|]. cbn [concat] in Hp. rewrite (request_takes verbose Hw) in Hp. discriminate.
    Qed.
  End Main.

  (** * The loop of [main] over any buffer *)
  Section Exact.
    Context {St B : Type}.
    Variable ds : data_source St byte.
    Variables (ops : buffer_ops byte B) (inv : B -> Prop) (view : B -> list byte) (room : B -> nat) (fits : nat -> Prop).
    Hypothesis Q : queue_like ops inv view room fits.
    Hypothesis Ho : obeys ds.
    Variable R : St -> list byte -> nat -> Prop.
    Hypothesis HR : delivers ds R.
    Hypothesis Hsize : forall b, inv b -> fits (length (view b)).
    Hypothesis H1fits : fits 1.
    Hypothesis Hdec : forall m, fits m \/ ~ fits m.

    Definition fitted (rest : list byte) : Prop := exists w q r, rest = w ++ r /\ message w q /\ fits (length w).

    Lemma fitted_suits : forall rest, fitted rest -> suits fits rest request.
    Proof.
      intros rest (w & q & r & -> & Hw & Hf). split.
      - apply request_stable.
      - apply request_well_behaved.
      - intros i. apply (proj2 (@request_answers verbose _ i (le_n _))).
      - intros _. exists 1. reflexivity.
      - intros b c n He Hn. symmetry in He. apply app_eq_app in He. destruct He as (x & [[-> He]|[-> He]]).
        + pose proof (request_takes verbose Hw false x) as Ht. congruence.
        + destruct x as [|y x].
          { rewrite app_nil_r in *. pose proof (request_takes verbose Hw false []) as Ht. rewrite app_nil_r in Ht. congruence. }
          destruct (@request_prefix verbose _ _ _ Hw ltac:(discriminate)) as (n' & Hn' & Hle). rewrite Hn in Hn'. inversion Hn'; subst n'.
          eapply (q_fits Q); [|exact Hf]. rewrite !app_length. cbn [length] in *. lia.
    Qed.

    (** Without a request that fits, the loop ends in a panic. *)
    Lemma unfit_panics : forall fuel st rest d n, inv (src_buffer st) -> R (src_source st) d 0 -> rest = view (src_buffer st) ++ d -> src_auto st = true ->
      (src_eoi st = true -> d = []) -> rest <> [] -> ~ fitted rest -> measure view st d 0 < fuel -> main_loop verbose ds ops fuel st n = Panicked.
    Proof.
      induction fuel as [|fuel IH]; intros st rest d n Hi Hd Hrest Ha He Hne Hu Hf; [lia|]. cbn [main_loop].
      destruct (src_parse_spec Q Ho st Hi (@request_well_behaved verbose)) as [(st1 & x & H1 & H2 & H3 & H4)|(st1 & H1 & H2)].
      { exfalso. destruct (src_fill_spec Q Ho st Hi) as (st2 & r & new & k & en & G1 & G2 & G3 & G4 & G5 & G6 & G7). rewrite H3 in G1. inversion G1; subst st2 r.
        destruct G7 as [-> _]. destruct (reads_delivers HR G2 _ _ Hd) as (d1 & _ & G8 & _). lia. }
      assert (Hst1 : exists d1, inv (src_buffer st1) /\ R (src_source st1) d1 0 /\ rest = view (src_buffer st1) ++ d1 /\ src_auto st1 = true /\
        (src_eoi st1 = true -> view (src_buffer st1) <> []) /\ (src_eoi st1 = true \/ 2 * length d1 < measure view st d 0)).
      { destruct (src_incomplete st) eqn:Hinc.
        - rewrite Ha in H1. cbn [andb] in H1. destruct H1 as [m H1].
          destruct (src_fill_spec Q Ho st Hi) as (st2 & r & new & k & en & G1 & G2 & G3 & G4 & G5 & G6 & G7). rewrite H1 in G1. inversion G1; subst st2 r.
          destruct (reads_delivers HR G2 _ _ Hd) as (d1 & K1 & K2 & K3 & K4). destruct G7 as (-> & _ & G7 & G8 & G9).
          assert (Hrest1 : rest = view (src_buffer st1) ++ d1) by (rewrite G4, <- app_assoc, <- K1; assumption).
          exists d1. split; [assumption|]. split; [assumption|]. split; [assumption|]. split; [congruence|]. split.
          + intros Heoi Hv. destruct G9 as [G9|[G9|G9]]; [congruence| |].
            * apply Hne. rewrite Hrest1, Hv, (K4 G9). reflexivity.
            * apply G9. rewrite Hv. assumption.
          + destruct (src_eoi st1); [auto|right]. symmetry in G8. apply Nat.ltb_ge in G8. unfold measure. rewrite Hinc. cbn [andb].
            assert (Hl : length d = length new + length d1) by (rewrite K1, app_length; reflexivity). rewrite G4, app_length in G8.
            destruct (Nat.ltb_spec (length (view (src_buffer st))) (Nat.max 1 (src_request st))); lia.
        - cbn [andb] in H1. subst st1. exists d. split; [assumption|]. split; [assumption|]. split; [assumption|]. split; [assumption|]. split.
          + intros Heoi Hv. apply Hne. rewrite Hrest, Hv, (He Heoi). reflexivity.
          + right. unfold measure. rewrite Hinc. cbn [andb]. lia. }
      destruct Hst1 as (d1 & Hi1 & HR1 & Hrest1 & Ha1 & He1 & Hm1). clear H1. cbn zeta in H2. set (data := view (src_buffer st1)) in *.
      destruct H2 as [(H2 & H3 & H4)|[_ H3]]; [exfalso; exact (He1 H2 H3)|].
      destruct H3 as [(H3 & H4)|[(H3 & H4)|(st' & out & H3 & H4 & H5 & H6 & H7 & H8)]].
      - exfalso. exact (proj1 (@request_answers verbose _ _ (le_n _)) H3).
      - exfalso. exact (proj2 (@request_answers verbose _ _ (le_n _)) H3).
      - rewrite H3. cbn [run_bind]. destruct (request (mkInput (src_eoi st1) data)) as [j v|b x|m| |] eqn:Hp; cbn [answer] in H8; try contradiction.
        + exfalso. apply Hu. pose proof (@request_reads verbose _ _ _ Hp) as (_ & w & Hw & Hsplit). cbn [buf] in Hsplit. exists w, v, (buf j ++ d1).
          split; [rewrite Hrest1, Hsplit, app_assoc; reflexivity|]. split; [assumption|]. eapply (q_fits Q); [|apply (Hsize Hi1)]. fold data. rewrite Hsplit, app_length. lia.
        + destruct H8 as (-> & _). reflexivity.
        + destruct H8 as (H8 & H9 & H10). destruct (src_eoi st1) eqn:Heoi.
          * destruct H10 as [-> _]. reflexivity.
          * destruct H10 as [-> H10]. destruct Hm1 as [Hm1|Hm1]; [discriminate|].
            pose proof (@request_well_behaved verbose (mkInput false data)) as Hw. rewrite Hp in Hw. cbn [honest] in Hw.
            apply (IH st' rest d1 n); auto; try congruence.
            { rewrite H8. assumption. }
            unfold measure. rewrite H10, H9, H8. cbn [andb]. fold data. replace (length data <? Nat.max 1 (length data + m)) with true by (symmetry; apply Nat.ltb_lt; lia). lia.
    Qed.

    Definition fitting (data : list byte) (qs : list (request_t * list header_t)) : Prop :=
      exists ws, data = concat ws /\ Forall2 message ws qs /\ Forall (fun w => fits (length w)) ws.

    Lemma fitting_data : forall data qs j q, fitting data qs -> request (mkInput true data) = Data j q -> exists qs', qs = q :: qs' /\ fitting (buf j) qs'.
    Proof.
      intros data qs j q (ws & -> & Hws & Hf) H. destruct Hws as [|w q' ws qs Hw Hws]; [discriminate|]. cbn [concat] in H. rewrite (request_takes verbose Hw) in H. inversion H; subst.
      inversion Hf; subst. exists qs. split; [reflexivity|]. exists ws. auto.
    Qed.

    Lemma main_exact : forall fuel st rest d n, stands inv view fits R st rest d 0 -> 2 * length rest + measure view st d 0 < fuel ->
      (exists qs, fitting rest qs /\ main_loop verbose ds ops fuel st n = Done (n + length qs)) \/
      ((forall qs, ~ fitting rest qs) /\ main_loop verbose ds ops fuel st n = Panicked).
    Proof.
      induction fuel as [|fuel IH]; intros st rest d n Hst Hf; [lia|].
      assert (Hcase : rest = [] \/ fitted rest \/ (rest <> [] /\ ~ fitted rest)).
      { destruct rest as [|y r] eqn:Hr; [auto|right]. rewrite <- Hr in *. destruct (request (mkInput true rest)) as [j q| | | |] eqn:Hp.
        1: { pose proof (@request_reads verbose _ _ _ Hp) as (_ & w & Hw & Hsplit). cbn [buf] in Hsplit. destruct (Hdec (length w)) as [Hl|Hl].
          - left. exists w, q, (buf j). auto.
          - right. split; [subst; discriminate|]. intros (w' & q' & r' & He & Hw' & Hl'). rewrite He in Hp. rewrite (request_takes verbose Hw') in Hp. inversion Hp; subst j q'.
            cbn [buf] in Hsplit. rewrite He in Hsplit. apply app_inv_tail in Hsplit. subst w'. contradiction. }
        all: right; split; [subst; discriminate|]; intros (w' & q' & r' & He & Hw' & Hl'); rewrite He in Hp; rewrite (request_takes verbose Hw') in Hp; discriminate. }
      destruct Hcase as [Hr|[Hr|[Hr Hu]]].
      3: { right. split.
        - intros qs (ws & He & Hws & Hfs). destruct Hws as [|w q ws qs Hw Hws]; [contradiction|]. apply Hu. inversion Hfs; subst. exists w, q, (concat ws). auto.
        - destruct Hst as (Hi & Hd & Hrest & Ha & He & _). eapply unfit_panics; eauto. lia. }
      all: assert (Hs : suits fits rest request) by (first [subst rest; apply request_suits_all; intros m Hm; eapply (q_fits Q); [|exact H1fits]; cbn [length] in Hm; lia|apply fitted_suits; assumption]);
        cbn [main_loop].
      all: destruct (parse_step Q Ho HR Hst Hs) as [(st' & r & d' & e' & H1 & H2 & H3 & H4 & H5 & H6)|[(H1 & st' & d' & H2 & H3 & H4)|[(H1 & H2 & H3)|(H1 & st' & d' & out & rest' & out' & H2 & H3 & H4 & H5 & H6)]]];
        [rewrite H1; cbn [run_bind]; destruct H2 as [->|[_ H2]]; [|lia]; replace e' with 0 in * by lia; apply (IH _ _ _ n H3); lia
        |rewrite H2; cbn [run_bind]; left; exists []; subst rest; split; [exists []; repeat constructor|cbn [length]; rewrite Nat.add_0_r; reflexivity]
        |exfalso; exact (proj1 (@request_answers verbose _ (mkInput true rest) (le_n _)) H2)
        |].
      - contradiction.
      - destruct Hr as (w & q & r & He & Hw & Hl). rewrite H2. cbn [run_bind].
        assert (Hp : request (mkInput true rest) = Data (mkInput true r) q) by (rewrite He; apply (request_takes verbose Hw)).
        rewrite Hp in H5. cbn [whole buf] in H5. destruct H5 as [-> ->]. destruct out as [q'|[]]; cbn [same] in H6; try discriminate. inversion H6; subst q'.
        assert (Hlen : length r < length rest) by (rewrite He, app_length; apply message_ne in Hw; destruct w; [contradiction|cbn [length]; lia]).
        assert (Hm : measure view st' d' 0 <= measure view st d 0 + 1) by (unfold measure; destruct (_ && _), (_ && _); lia).
        destruct (IH _ _ _ (S n) H3 ltac:(lia)) as [(qs & G1 & G2)|[G1 G2]].
        + left. exists (q :: qs). split; [|rewrite G2; cbn [length]; f_equal; lia]. destruct G1 as (ws & -> & Hws & Hfs). exists (w :: ws). split; [assumption|]. split; constructor; assumption.
        + right. split; [|assumption]. intros qs Hqs. destruct (fitting_data Hqs Hp) as (qs' & _ & Hqs'). exact (G1 _ Hqs').
    Qed.
  End Exact.

  (** * A file that breaks off with an I/O error *)
  Section Broken.
    Context {St B : Type}.
    Variable ds : data_source St byte.
    Variables (ops : buffer_ops byte B) (inv : B -> Prop) (view : B -> list byte) (room : B -> nat) (fits : nat -> Prop).
    Hypothesis Q : queue_like ops inv view room fits.
    Hypothesis Ho : obeys ds.
    Variable F : St -> list byte -> Prop.
    Hypothesis HF : breaks ds F.
    Hypothesis H1fits : fits 1.

    Lemma reads_breaks : forall s s' new k en, SpecBuffer.reads ds s s' new k en -> k = 0 -> forall d, F s d ->
      exists d', d = new ++ d' /\ F s' d' /\ en = false.
    Proof.
      intros s s' new k en H. induction H as [s|s n s1 w k s2 l e b Hr H IH|s n s1 w x s2 l e b Hr H IH]; intros Hk d Hd; [exists d; auto| |discriminate].
      pose proof (HF Hd _ Hr) as (H1 & c & d1 & H2 & H3 & H4 & H5 & H6). destruct (IH Hk _ H5) as (d' & G1 & G2 & G3). subst k.
      rewrite (delivered_writes H4). exists d'. split; [rewrite H2, G1, app_assoc; reflexivity|]. split; [assumption|]. rewrite G3, orb_false_r.
      destruct (Nat.eqb_spec (length c) 0) as [E|E]; [|reflexivity]. rewrite (H6 E). reflexivity.
    Qed.

    (** A request that wants more than has been read so far does not end in it. *)
    Lemma wanting : forall v m new j q, request (mkInput false v) = Incomplete m -> request (mkInput true (v ++ new)) = Data j q ->
      length v + m <= length (v ++ new).
    Proof.
      intros v m new j q Hv Hp. pose proof (@request_reads verbose _ _ _ Hp) as (_ & w & Hw & Hsplit). cbn [buf] in Hsplit. pose proof Hsplit as Hl.
      apply (f_equal (@length _)) in Hl. rewrite (app_length w) in Hl. apply app_eq_app in Hsplit. destruct Hsplit as (x & [[E1 E2]|[E1 E2]]).
      - subst v. rewrite (request_takes verbose Hw) in Hv. discriminate.
      - destruct x as [|y x].
        { rewrite app_nil_r in E1. subst v. pose proof (request_takes verbose Hw false []) as Ht. rewrite app_nil_r in Ht. congruence. }
        subst w. destruct (@request_prefix verbose _ _ _ Hw ltac:(discriminate)) as (n' & Hn' & Hle). rewrite Hv in Hn'. inversion Hn'; subst n'.
        rewrite Hl, app_length. lia.
    Qed.

    Lemma broken_panics : forall fuel st d n, inv (src_buffer st) -> F (src_source st) d -> src_auto st = true -> src_eoi st = false ->
      (src_incomplete st = true -> src_request st <= 1 \/
         exists m, request (mkInput false (view (src_buffer st))) = Incomplete m /\ src_request st = length (view (src_buffer st)) + m) ->
      2 * length (view (src_buffer st) ++ d) + measure view st d 0 < fuel -> main_loop verbose ds ops fuel st n = Panicked.
    Proof.
      induction fuel as [|fuel IH]; intros st d n Hi Hd Ha He Hq Hf; [lia|]. cbn [main_loop].
      destruct (src_parse_spec Q Ho st Hi (@request_well_behaved verbose)) as [(st1 & x & _ & _ & _ & H4)|(st1 & H1 & H2)].
      { rewrite H4. reflexivity. }
      assert (Hst1 : exists d1 new, inv (src_buffer st1) /\ F (src_source st1) d1 /\ d = new ++ d1 /\ view (src_buffer st1) = view (src_buffer st) ++ new /\
        src_auto st1 = true /\ src_incomplete st1 = false /\
        (src_eoi st1 = true -> src_incomplete st = true /\ length (view (src_buffer st1)) < Nat.max 1 (src_request st) /\ view (src_buffer st1) <> []) /\
        (src_eoi st1 = true \/ 2 * length d1 < measure view st d 0)).
      { destruct (src_incomplete st) eqn:Hinc.
        - rewrite Ha in H1. cbn [andb] in H1. destruct H1 as [m H1].
          destruct (src_fill_spec Q Ho st Hi) as (st2 & r & new & k & en & G1 & G2 & G3 & G4 & G5 & G6 & G7). rewrite H1 in G1. inversion G1; subst st2 r.
          destruct G7 as (-> & _ & G7 & G8 & G9). destruct (reads_breaks G2 eq_refl Hd) as (d1 & K1 & K2 & ->).
          exists d1, new. split; [assumption|]. split; [assumption|]. split; [assumption|]. split; [assumption|]. split; [congruence|]. split; [assumption|]. split.
          + intros Heoi. split; [reflexivity|]. split.
            * rewrite Heoi in G8. symmetry in G8. apply Nat.ltb_lt in G8. exact G8.
            * intros Hv. destruct G9 as [G9|[G9|G9]]; [congruence|discriminate|]. apply G9. rewrite Hv. exact H1fits.
          + destruct (src_eoi st1); [auto|right]. symmetry in G8. apply Nat.ltb_ge in G8. unfold measure. rewrite Hinc. cbn [andb].
            assert (Hl : length d = length new + length d1) by (rewrite K1, app_length; reflexivity). rewrite G4, app_length in G8.
            destruct (Nat.ltb_spec (length (view (src_buffer st))) (Nat.max 1 (src_request st))); lia.
        - cbn [andb] in H1. subst st1. exists d, []. rewrite app_nil_r. split; [assumption|]. split; [assumption|]. split; [reflexivity|]. split; [reflexivity|].
          split; [assumption|]. split; [assumption|]. split; [congruence|]. right. unfold measure. rewrite Hinc. cbn [andb]. lia. }
      destruct Hst1 as (d1 & new & Hi1 & HF1 & Hsplit & Hview & Ha1 & Hinc1 & He1 & Hm1). clear H1. cbn zeta in H2. set (data := view (src_buffer st1)) in *.
      destruct H2 as [(H2 & H3 & H4)|[_ H3]]; [exfalso; destruct (He1 H2) as (_ & _ & E); exact (E H3)|].
      destruct H3 as [(H3 & H4)|[(H3 & H4)|(st' & out & H3 & H4 & H5 & H6 & H7 & H8)]].
      - exfalso. exact (proj1 (@request_answers verbose _ _ (le_n _)) H3).
      - exfalso. exact (proj2 (@request_answers verbose _ _ (le_n _)) H3).
      - rewrite H3. cbn [run_bind]. destruct (request (mkInput (src_eoi st1) data)) as [j v|b x|m| |] eqn:Hp; cbn [answer] in H8; try contradiction.
        + destruct H8 as (-> & H8 & H9 & H10). destruct (src_eoi st1) eqn:Heoi.
          * exfalso. destruct (He1 eq_refl) as (Hinc & Hlt & Hne). destruct (Hq Hinc) as [Hs|(m & Hm1' & Hm2)].
            { replace (Nat.max 1 (src_request st)) with 1 in Hlt by lia. destruct data; [apply Hne; reflexivity|cbn [length] in Hlt; lia]. }
            rewrite Hview in Hp. pose proof (@wanting _ _ _ _ _ Hm1' Hp) as Hw. rewrite <- Hview in Hw. fold data in Hw. destruct data; [apply Hne; reflexivity|]. cbn [length] in *. lia.
          * destruct Hm1 as [Hm1|Hm1]; [discriminate|]. pose proof (@request_reads verbose _ _ _ Hp) as (_ & w & Hw & Hwj). cbn [buf] in Hwj. apply message_ne in Hw.
            apply (IH st' d1 (S n)); auto; try congruence.
            unfold measure. rewrite H10, Hinc1, H8. cbn [andb]. assert (Hl : length (view (src_buffer st) ++ d) = length data + length d1) by (fold data in Hview; rewrite Hsplit, app_assoc, app_length; f_equal; congruence).
            rewrite Hl in Hf. rewrite app_length. rewrite Hwj, app_length in Hf. destruct w; [contradiction|]. cbn [length] in Hf. lia.
        + destruct H8 as (-> & _). reflexivity.
        + destruct H8 as (H8 & H9 & H10). destruct (src_eoi st1) eqn:Heoi.
          * destruct H10 as [-> _]. reflexivity.
          * destruct H10 as [-> H10]. destruct Hm1 as [Hm1|Hm1]; [discriminate|].
            pose proof (@request_well_behaved verbose (mkInput false data)) as Hw. rewrite Hp in Hw. cbn [honest] in Hw.
            assert (Hl : length (view (src_buffer st) ++ d) = length data + length d1) by (fold data in Hview; rewrite Hsplit, app_assoc, app_length; f_equal; congruence).
            apply (IH st' d1 n); auto; try congruence.
            { intros _. right. exists m. rewrite H8. fold data. split; assumption. }
            unfold measure. rewrite H10, H9, H8. cbn [andb]. fold data. rewrite app_length. replace (length data <? Nat.max 1 (length data + m)) with true by (symmetry; apply Nat.ltb_lt; lia). lia.
    Qed.
  End Broken.
End Loop.
