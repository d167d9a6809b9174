(** Proofs for C73: expressions read as BNF. *)
From Coq Require Import List Bool Arith Lia.
From Verif Require Import SpecBase BaseProofs SpecPeg Peg PegProofs PegTotal SpecBnf.
Import ListNotations.

Set Implicit Arguments.

(** * What the parser accepts are phrases *)

Section Sound.
  Context {I : Type}.
  Variable eqb : I -> I -> bool.
  Variable g : nat -> peg I.
  Hypothesis Hg : forall n, context_free (g n).
  Notation derives := (derives eqb g).
  Notation steps := (steps eqb g).
  Notation matches := (matches eqb g).
  Notation repeated := (repeated eqb g).

  Lemma derives_matches :
    (forall e s r d, derives e s r d -> context_free e -> forall t rest, r = Some (t, rest) -> exists x, s = x ++ rest /\ matches e x t) /\
    (forall a s ts rest d, steps a s ts rest d -> context_free a -> exists x, s = x ++ rest /\ repeated a x ts).
  Proof.
    apply derives_steps_ind; try (intros; discriminate); cbn [context_free].
    - intros s _ t rest E. inversion E; subst. exists []. split; [reflexivity|constructor].
    - intros f x s Hx _ t rest E. inversion E; subst. exists [x]. split; [reflexivity|constructor; assumption].
    - intros w x s Hw _ t rest E. inversion E; subst. exists x. split; [reflexivity|constructor; assumption].
    - intros f x c s Hx Hc _ t rest E. inversion E; subst. exists x. split; [reflexivity|constructor; assumption].
    - intros f x Hx _ t rest E. inversion E; subst. exists x. rewrite app_nil_r. split; [reflexivity|constructor; assumption].
    - intros a b s t s1 d1 u s2 d2 D1 IH1 D2 IH2 [Ha Hb] t' rest E. inversion E; subst. destruct (IH1 Ha _ _ eq_refl) as (x & -> & Mx). destruct (IH2 Hb _ _ eq_refl) as (y & -> & My).
      exists (x ++ y). rewrite app_assoc. split; [reflexivity|constructor; assumption].
    - intros a b s t s1 d1 r d2 D1 IH1 D2 IH2 [Ha Hb] u rest E. destruct (IH1 Ha _ _ eq_refl) as (x & -> & Mx). destruct (IH2 Hb _ _ E) as (y & -> & My).
      exists (x ++ y). rewrite app_assoc. split; [reflexivity|econstructor; eassumption].
    - intros a b s x d D IH [Ha Hb] t rest E. destruct (IH Ha _ _ E) as (y & -> & M). exists y. split; [reflexivity|constructor; assumption].
    - intros a b s d1 r d2 D1 IH1 D2 IH2 [Ha Hb] t rest E. destruct (IH2 Hb _ _ E) as (y & -> & M). exists y. split; [reflexivity|apply m_alt2; assumption].
    - intros a s x d D IH Ha t rest E. destruct (IH Ha _ _ E) as (y & -> & M). exists y. split; [reflexivity|constructor; assumption].
    - intros a s d D IH Ha t rest E. inversion E; subst. exists []. split; [reflexivity|apply m_opt_not].
    - intros a s t s1 d D IH Ha. contradiction.
    - intros a x t s1 d D IH Ha t' rest E. inversion E; subst. destruct (IH Ha _ _ eq_refl) as (y & Hy & M). apply app_inv_tail in Hy. subst y.
      exists x. split; [reflexivity|constructor; assumption].
    - intros a s ts s1 d1 d2 D1 IH1 D2 IH2 Ha t rest E. inversion E; subst. destruct (IH1 Ha) as (x & -> & M). exists x. split; [reflexivity|constructor; assumption].
    - intros a s ts s1 d1 d2 D1 IH1 Hne D2 IH2 Ha t rest E. inversion E; subst. destruct (IH1 Ha) as (x & -> & M). exists x. split; [reflexivity|constructor; assumption].
    - intros a s ts s1 d D IH Ha t rest E. inversion E; subst. destruct (IH Ha) as (x & -> & M). exists x. split; [reflexivity|constructor; assumption].
    - intros a b s t s1 d1 ts s2 d2 d3 D1 IH1 D2 IH2 D3 _ [Ha Hb] t' rest E. inversion E; subst. destruct (IH1 Ha _ _ eq_refl) as (x & -> & Mx).
      destruct (IH2 (conj Hb Ha)) as (y & -> & My). exists (x ++ y). rewrite app_assoc. split; [reflexivity|constructor; assumption].
    - intros n s r d D IH _ t rest E. destruct (IH (Hg n) _ _ E) as (x & -> & M). exists x. split; [reflexivity|constructor; assumption].
    - intros a s Ha. exists []. split; [reflexivity|constructor].
    - intros a s t s1 d1 ts s2 d2 D1 IH1 D2 IH2 Ha. destruct (IH1 Ha _ _ eq_refl) as (x & -> & Mx). destruct (IH2 Ha) as (y & -> & My).
      exists (x ++ y). rewrite app_assoc. split; [reflexivity|constructor; assumption].
  Qed.
End Sound.

(** * Phrases of LL(1) grammars are found *)

Section Complete.
  Context {I : Type}.
  Variable eqb : I -> I -> bool.
  Variable g : nat -> peg I.
  Variable nul : nat -> bool.
  Variable rank : nat -> nat.
  Variable follow : nat -> I -> Prop.
  Variable k : nat.
  Hypothesis Hg : ll1_grammar eqb nul rank follow k g.
  Notation derives := (derives eqb g).
  Notation steps := (steps eqb g).
  Notation matches := (matches eqb g).
  Notation repeated := (repeated eqb g).
  Notation starts := (starts eqb g nul).
  Notation ll1 := (ll1 eqb g nul follow).
  Let Hwf := lg_well_formed Hg.

  Lemma ll1_context_free : forall e F, ll1 F e -> context_free e.
  Proof. induction e; cbn [SpecBnf.ll1 context_free]; intros F H; intuition eauto. Qed.

  Lemma matches_empty :
    (forall e x t, matches e x t -> x = [] -> may_empty nul e = true) /\
    (forall a x ts, repeated a x ts -> x = [] -> ts <> [] -> may_empty nul a = true).
  Proof.
    apply matches_repeated_ind; cbn [may_empty]; try reflexivity; try discriminate; auto.
    - intros w x H ->. inversion H. reflexivity.
    - intros a b x y t u _ IHa _ IHb E. apply app_eq_nil in E. destruct E. rewrite IHa, IHb; auto.
    - intros a b x y t u _ IHa _ IHb E. apply app_eq_nil in E. destruct E. rewrite IHa, IHb; auto.
    - intros a b x t _ IH E. rewrite IH; auto.
    - intros a b x t _ IH E. rewrite IH, orb_true_r; auto.
    - intros a x ts _ IH E. destruct ts; [reflexivity|]. apply IH; [assumption|discriminate].
    - intros a b x y t ts _ IHa _ _ E. apply app_eq_nil in E. apply IHa, E.
    - intros n x t _ IH E. apply (proj2 (Hwf n)). auto.
    - intros a x y t ts _ IH _ _ E _. apply app_eq_nil in E. apply IH, E.
  Qed.

  Lemma matches_starts :
    (forall e x t, matches e x t -> forall c y, x = c :: y -> starts e c) /\
    (forall a x ts, repeated a x ts -> forall c y, x = c :: y -> starts a c).
  Proof.
    apply matches_repeated_ind; try discriminate.
    - intros f x Hf c y E. inversion E; subst. constructor. assumption.
    - intros w x H c y ->. inversion H; subst. constructor. assumption.
    - intros f x H c y ->. inversion H; subst. constructor. assumption.
    - intros a b x y t u Ma IHa Mb IHb c z E. destruct x as [|c' x].
      + apply st_seq2; [exact (proj1 matches_empty _ _ _ Ma eq_refl)|eauto].
      + inversion E; subst. apply st_seq1. eauto.
    - intros a b x y t u Ma IHa Mb IHb c z E. destruct x as [|c' x].
      + apply st_then2; [exact (proj1 matches_empty _ _ _ Ma eq_refl)|eauto].
      + inversion E; subst. apply st_then1. eauto.
    - intros a b x t _ IH c y E. apply st_alt1. eauto.
    - intros a b x t _ IH c y E. apply st_alt2. eauto.
    - intros a x t _ IH c y E. apply st_opt. eauto.
    - intros a x t _ IH c y E. apply st_slice. eauto.
    - intros a x ts _ IH c y E. apply st_star. eauto.
    - intros a x ts _ IH Hne c y E. apply st_plus. eauto.
    - intros a x ts _ IH c y E. apply st_times. eauto.
    - intros a b x y t ts Ma IHa Mb IHb c z E. destruct x as [|c' x].
      + pose proof (proj1 matches_empty _ _ _ Ma eq_refl) as Hm. pose proof (IHb _ _ E) as Hb. inversion Hb; subst; [apply st_sep2|apply st_sep1]; assumption.
      + inversion E; subst. apply st_sep1. eauto.
    - intros n x t _ IH c y E. apply st_rule. eauto.
    - intros a x y t ts Ma IHa Mb IHb c z E. destruct x as [|c' x]; [eauto|]. inversion E; subst. eauto.
  Qed.

  (** The next item decides when it does not start [e]. *)
  Definition apart (e : peg I) (s : list I) : Prop := follows (fun c => ~ starts e c) s.
  Lemma apart_sub : forall a e s, apart e s -> (forall c, starts a c -> starts e c) -> apart a s.
  Proof. intros a e [|c s] H Hs; [exact Logic.I|]. cbn in *. intros Ha. apply H, Hs, Ha. Qed.

  Lemma seen_same : forall (s : list I) d1 d2, seen s s d1 d2 = Nat.max d1 d2.
  Proof. intros. unfold seen. lia. Qed.
  Lemma derives_here : forall e s t d, derives e s (Some (t, s)) d -> may_empty nul e = true.
  Proof.
    intros e s t d D. destruct (may_empty nul e) eqn:M; [reflexivity|]. pose proof (proj1 (derives_consumes eqb Hwf) _ _ _ _ D M _ _ eq_refl). lia.
  Qed.

  Lemma apart_decides :
    (forall e s r d, derives e s r d -> short k e -> apart e s -> (r = None \/ exists t, r = Some (t, s)) /\ d <= k) /\
    (forall a s ts s1 d, steps a s ts s1 d -> short k a -> apart a s -> s1 = s /\ d <= k).
  Proof.
    pose proof (lg_one Hg) as H1.
    apply derives_steps_ind; cbn [short].
    - intros s _ _. split; [eauto|lia].
    - intros f x s Hx _ Ha. destruct Ha. constructor. assumption.
    - intros f x s Hx _ Ha. split; [auto|lia].
    - intros f _ Ha. split; [auto|lia].
    - intros w x s Hw Hs Ha. split; [|assumption]. inversion Hw as [|u v us vs Huv Hus]; subst; [eauto|]. destruct Ha. constructor. assumption.
    - intros w s Hw Hs Ha. auto.
    - intros f x c s Hx Hc _ Ha. inversion Hx as [|u us Hu Hus]; subst; [cbn [length]; split; [eauto|lia]|]. destruct Ha. constructor. assumption.
    - intros f x Hx _ Ha. inversion Hx as [|u us Hu Hus]; subst; [cbn [length]; split; [eauto|lia]|]. destruct Ha. constructor. assumption.
    - intros a b s t s1 d1 u s2 d2 D1 IH1 D2 IH2 [Ka Kb] Ha. destruct IH1 as [[|[t' E]] L1]; auto; [eapply apart_sub; [exact Ha|apply st_seq1]|discriminate|]. inversion E; subst.
      pose proof (derives_here D1) as Hm. destruct IH2 as [[|[t'' E2]] L2]; auto; [eapply apart_sub; [exact Ha|intros c; apply st_seq2; assumption]|discriminate|]. inversion E2; subst.
      rewrite seen_same. split; [eauto|lia].
    - intros a b s d D IH [Ka Kb] Ha. destruct IH as [_ L]; auto. eapply apart_sub; [exact Ha|apply st_seq1].
    - intros a b s t s1 d1 d2 D1 IH1 D2 IH2 [Ka Kb] Ha. destruct IH1 as [[|[t' E]] L1]; auto; [eapply apart_sub; [exact Ha|apply st_seq1]|discriminate|]. inversion E; subst.
      pose proof (derives_here D1) as Hm. destruct IH2 as [_ L2]; auto; [eapply apart_sub; [exact Ha|intros c; apply st_seq2; assumption]|].
      rewrite seen_same. split; [auto|lia].
    - intros a b s t s1 d1 r d2 D1 IH1 D2 IH2 [Ka Kb] Ha. destruct IH1 as [[|[t' E]] L1]; auto; [eapply apart_sub; [exact Ha|apply st_then1]|discriminate|]. inversion E; subst.
      pose proof (derives_here D1) as Hm. destruct IH2 as [R L2]; auto; [eapply apart_sub; [exact Ha|intros c; apply st_then2; assumption]|].
      rewrite seen_same. split; [auto|lia].
    - intros a b s d D IH [Ka Kb] Ha. destruct IH as [_ L]; auto. eapply apart_sub; [exact Ha|apply st_then1].
    - intros a b s x d D IH [Ka Kb] Ha. apply IH; auto. eapply apart_sub; [exact Ha|apply st_alt1].
    - intros a b s d1 r d2 D1 IH1 D2 IH2 [Ka Kb] Ha. destruct IH1 as [_ L1]; auto; [eapply apart_sub; [exact Ha|apply st_alt1]|].
      destruct IH2 as [R L2]; auto; [eapply apart_sub; [exact Ha|apply st_alt2]|]. split; [assumption|lia].
    - intros a s x d D IH Ka Ha. apply IH; auto. eapply apart_sub; [exact Ha|apply st_opt].
    - intros a s d D IH Ka Ha. destruct IH as [_ L]; auto; [eapply apart_sub; [exact Ha|apply st_opt]|]. eauto.
    - intros a s t s1 d D IH Ka Ha. destruct IH as [_ L]; auto; [eapply apart_sub; [exact Ha|apply st_ahead]|]. eauto.
    - intros a s d D IH Ka Ha. destruct IH as [_ L]; auto. eapply apart_sub; [exact Ha|apply st_ahead].
    - intros a x t s1 d D IH Ka Ha. destruct IH as [[|[t' E]] L]; auto; [eapply apart_sub; [exact Ha|apply st_slice]|discriminate|]. inversion E as [[Et Es]]. split; [|assumption].
      destruct x as [|c x]; [eauto|]. apply (f_equal (@length I)) in Es. rewrite app_length in Es. cbn in Es. lia.
    - intros a s d D IH Ka Ha. destruct IH as [_ L]; auto. eapply apart_sub; [exact Ha|apply st_slice].
    - intros a s ts s1 d1 d2 D1 IH1 D2 IH2 Ka Ha. assert (Ha' : apart a s) by (eapply apart_sub; [exact Ha|apply st_star]). destruct (IH1 Ka Ha') as [-> L1].
      destruct (IH2 Ka Ha') as [_ L2]. rewrite seen_same. split; [eauto|lia].
    - intros a s ts s1 d1 d2 D1 IH1 Hne D2 IH2 Ka Ha. assert (Ha' : apart a s) by (eapply apart_sub; [exact Ha|apply st_plus]). destruct (IH1 Ka Ha') as [-> L1].
      destruct (IH2 Ka Ha') as [_ L2]. rewrite seen_same. split; [eauto|lia].
    - intros a s d D IH Ka Ha. destruct IH as [_ L]; auto. eapply apart_sub; [exact Ha|apply st_plus].
    - intros a s ts s1 d D1 IH1 Ka Ha. destruct IH1 as [-> L1]; auto; [eapply apart_sub; [exact Ha|intros c; apply st_times]|]. eauto.
    - intros n a s ts s1 d1 d2 D1 IH1 Hn D2 IH2 Ka Ha. assert (Ha' : apart a s) by (eapply apart_sub; [exact Ha|intros c; apply st_times]). destruct (IH1 Ka Ha') as [-> L1].
      destruct (IH2 Ka Ha') as [_ L2]. rewrite seen_same. split; [auto|lia].
    - intros a b s t s1 d1 ts s2 d2 d3 D1 IH1 D2 IH2 D3 IH3 [Ka Kb] Ha. destruct IH1 as [[|[t' E]] L1]; auto; [eapply apart_sub; [exact Ha|apply st_sep1]|discriminate|]. inversion E; subst.
      pose proof (derives_here D1) as Hm.
      assert (Ha' : apart (Then b a) s) by (eapply apart_sub; [exact Ha|]; intros c Hc; inversion Hc; subst; [apply st_sep2|apply st_sep1]; assumption).
      destruct (IH2 (conj Kb Ka) Ha') as [-> L2]. destruct (IH3 (conj Kb Ka) Ha') as [_ L3]. rewrite !seen_same. split; [eauto|lia].
    - intros a b s d D IH [Ka Kb] Ha. destruct IH as [_ L]; auto. eapply apart_sub; [exact Ha|apply st_sep1].
    - intros n s r d D IH _ Ha. apply IH; [apply (lg_short Hg)|]. eapply apart_sub; [exact Ha|apply st_rule].
    - intros a s _ _. split; [reflexivity|lia].
    - intros a s t s1 d1 ts s2 d2 D1 IH1 D2 IH2 Ka Ha. destruct (IH1 Ka Ha) as [[|[t' E]] L1]; [discriminate|]. inversion E; subst. destruct (IH2 Ka Ha) as [-> L2].
      rewrite seen_same. split; [reflexivity|lia].
  Qed.

  Lemma apart_fails : forall e s, good nul rank None e -> short k e -> may_empty nul e = false -> apart e s -> exists d, derives e s None d /\ d <= k.
  Proof.
    intros e s He Hs Hm Ha. destruct (wf_total eqb Hwf s e He) as (r & d & D). destruct (proj1 apart_decides _ _ _ _ D Hs Ha) as [[->|[t ->]] L]; [eauto|].
    rewrite (derives_here D) in Hm. discriminate.
  Qed.

  Lemma follows_app : forall (P F : I -> Prop) x rest, (forall c y, x = c :: y -> P c) -> (x = [] -> follows F rest) -> follows (fun c => P c \/ (x = [] /\ F c)) (x ++ rest).
  Proof. intros P F [|c x] rest H1 H2; [destruct rest; [exact Logic.I|right; split; [reflexivity|apply H2; reflexivity]]|left; eapply H1; reflexivity]. Qed.
  Lemma follows_sub : forall (F F' : I -> Prop) rest, follows F rest -> (forall c, F c -> F' c) -> follows F' rest.
  Proof. intros F F' [|c rest] H Hs; [exact Logic.I|]. apply Hs, H. Qed.
  Lemma seen_app : forall (x y rest : list I) d1 d2, d1 <= length x + k -> d2 <= length y + k -> seen (x ++ y ++ rest) (y ++ rest) d1 d2 <= length (x ++ y) + k.
  Proof. intros x y rest d1 d2 H1 H2. unfold seen. rewrite !app_length. lia. Qed.

  Lemma matches_derives :
    (forall e x t, matches e x t -> forall F rest, ll1 F e -> good nul rank None e -> short k e -> follows F rest ->
       exists d, derives e (x ++ rest) (Some (t, rest)) d /\ d <= length x + k) /\
    (forall a x ts, repeated a x ts -> forall F rest, ll1 (fun c => starts a c \/ F c) a -> good nul rank None a -> short k a -> follows F rest ->
       exists d, steps a (x ++ rest) ts rest d /\ d <= length x + k).
  Proof.
    pose proof (lg_one Hg) as H1. assert (Hif : forall (x : bool), (if x then @None nat else None) = None) by (intros [|]; reflexivity).
    apply matches_repeated_ind; cbn [SpecBnf.ll1 good short]; rewrite ?Hif.
    - intros F rest _ _ _ _. eexists. split; [constructor|lia].
    - intros f x Hx F rest _ _ _ _. eexists. split; [constructor; assumption|cbn; lia].
    - intros w x Hw F rest _ _ Hs _. eexists. split; [constructor; assumption|lia].
    - intros f x Hx F rest HF _ _ Hr. destruct rest as [|c rest].
      + rewrite app_nil_r. eexists. split; [constructor; assumption|lia].
      + eexists. split; [apply d_run; [assumption|apply HF, Hr]|lia].
    - intros a b x y t u Ma IHa Mb IHb F rest [La Lb] [Ga Gb] [Sa Sb] Hr. rewrite Hif in Gb. destruct (IHb F rest Lb Gb Sb Hr) as (d2 & D2 & H2).
      destruct (IHa _ (y ++ rest) La Ga Sa) as (d1 & D1 & H3).
      { eapply follows_sub; [apply (@follows_app (starts b) F); [apply (proj1 matches_starts _ _ _ Mb)|intros _; exact Hr]|]. intros c [H|[-> H]]; [left; exact H|right; split; [exact (proj1 matches_empty _ _ _ Mb eq_refl)|exact H]]. }
      rewrite <- app_assoc. eexists. split; [econstructor; eassumption|apply seen_app; assumption].
    - intros a b x y t u Ma IHa Mb IHb F rest [La Lb] [Ga Gb] [Sa Sb] Hr. rewrite Hif in Gb. destruct (IHb F rest Lb Gb Sb Hr) as (d2 & D2 & H2).
      destruct (IHa _ (y ++ rest) La Ga Sa) as (d1 & D1 & H3).
      { eapply follows_sub; [apply (@follows_app (starts b) F); [apply (proj1 matches_starts _ _ _ Mb)|intros _; exact Hr]|]. intros c [H|[-> H]]; [left; exact H|right; split; [exact (proj1 matches_empty _ _ _ Mb eq_refl)|exact H]]. }
      rewrite <- app_assoc. eexists. split; [econstructor; eassumption|apply seen_app; assumption].
    - intros a b x t Ma IH F rest (Hm & Hd & HF & La & Lb) [Ga Gb] [Sa Sb] Hr. destruct (IH F rest La Ga Sa Hr) as (d & D & H). eexists. split; [apply d_alt1; exact D|exact H].
    - intros a b x t Mb IH F rest (Hm & Hd & HF & La & Lb) [Ga Gb] [Sa Sb] Hr. destruct (IH F rest Lb Gb Sb Hr) as (d2 & D2 & H2).
      destruct (@apart_fails a (x ++ rest) Ga Sa Hm) as (d1 & D1 & H3).
      { eapply follows_sub; [apply (@follows_app (starts b) F); [apply (proj1 matches_starts _ _ _ Mb)|intros _; exact Hr]|]. intros c [Hb|[-> Hc]] Ha; [exact (Hd c Ha Hb)|].
        exact (HF (proj1 matches_empty _ _ _ Mb eq_refl) c Hc Ha). }
      eexists. split; [eapply d_alt2; eassumption|lia].
    - intros a x t Ma IH F rest (Hm & HF & La) Ga Sa Hr. destruct (IH F rest La Ga Sa Hr) as (d & D & H). eexists. split; [apply d_opt; exact D|exact H].
    - intros a F rest (Hm & HF & La) Ga Sa Hr. destruct (@apart_fails a rest Ga Sa Hm) as (d & D & H); [eapply follows_sub; eassumption|]. cbn [app length].
      eexists. split; [eapply d_opt_not; eassumption|lia].
    - intros a x t Ma IH F rest La Ga Sa Hr. destruct (IH F rest La Ga Sa Hr) as (d & D & H). eexists. split; [apply d_slice; exact D|exact H].
    - intros a x ts Ma IH F rest [HF La] [Hm Ga] Sa Hr. destruct (IH F rest La Ga Sa Hr) as (d1 & D1 & H2).
      destruct (@apart_fails a rest Ga Sa Hm) as (d2 & D2 & H3); [eapply follows_sub; eassumption|].
      eexists. split; [eapply d_star; eassumption|]. unfold seen. rewrite app_length. lia.
    - intros a x ts Ma IH Hne F rest [HF La] [Hm Ga] Sa Hr. destruct (IH F rest La Ga Sa Hr) as (d1 & D1 & H2).
      destruct (@apart_fails a rest Ga Sa Hm) as (d2 & D2 & H3); [eapply follows_sub; eassumption|].
      eexists. split; [eapply d_plus; eassumption|]. unfold seen. rewrite app_length. lia.
    - intros a x ts Ma IH F rest La Ga Sa Hr. destruct (IH F rest La Ga Sa Hr) as (d1 & D1 & H2). eexists. split; [apply d_times; exact D1|exact H2].
    - intros a b x y t ts Ma IHa Mb IHb F rest (HF & La & Lb) (Hm & Ga & Gb) [Sa Sb] Hr. rewrite Hif in Gb.
      assert (Gba : good nul rank None (Then b a)) by (cbn [good]; rewrite Hif; auto).
      assert (Lba : ll1 (fun c => starts (Then b a) c \/ F c) (Then b a)) by (cbn [SpecBnf.ll1]; auto).
      destruct (IHb F rest Lba Gba (conj Sb Sa) Hr) as (d2 & D2 & H2).
      destruct (@apart_fails (Then b a) rest Gba (conj Sb Sa)) as (d3 & D3 & H3); [cbn [may_empty]; rewrite andb_comm; exact Hm|eapply follows_sub; eassumption|].
      destruct (IHa _ (y ++ rest) La Ga Sa) as (d1 & D1 & H4).
      { eapply follows_sub; [apply (@follows_app (starts (Then b a)) F); [apply (proj2 matches_starts _ _ _ Mb)|intros _; exact Hr]|]. intros c [H|[_ H]]; auto. }
      rewrite <- app_assoc. eexists. split; [eapply d_sep; eassumption|]. apply seen_app; [assumption|]. unfold seen. rewrite app_length. lia.
    - intros n x t M IH F rest HF _ _ Hr. destruct (IH _ rest (lg_ll1 Hg n) (good_none nul rank _ _ (proj1 (Hwf n))) (lg_short Hg n) (follows_sub _ _ _ Hr HF)) as (d & D & H).
      eexists. split; [apply d_rule; exact D|exact H].
    - intros a F rest _ _ _ _. eexists. split; [constructor|lia].
    - intros a x y t ts Ma IHa Mb IHb F rest La Ga Sa Hr. destruct (IHb F rest La Ga Sa Hr) as (d2 & D2 & H2).
      destruct (IHa _ (y ++ rest) La Ga Sa) as (d1 & D1 & H3).
      { eapply follows_sub; [apply (@follows_app (starts a) F); [apply (proj2 matches_starts _ _ _ Mb)|intros _; exact Hr]|]. intros c [H|[_ H]]; auto. }
      rewrite <- app_assoc. eexists. split; [econstructor; eassumption|apply seen_app; assumption].
  Qed.
End Complete.

(** * What is not looked at does not matter *)

Section Local.
  Context {I : Type}.
  Variable eqb : I -> I -> bool.
  Variable g : nat -> peg I.
  Notation derives := (derives eqb g).
  Notation steps := (steps eqb g).

  Definition further (v : list I) (r : option (tree I * list I)) : option (tree I * list I) := option_map (fun x => (fst x, snd x ++ v)) r.

  (** Where matching stops after a look at [d] items of [u ++ v], all of them in [u]. *)
  Lemma seen_bound : forall (s s1 : list I) d1 d2 n, seen s s1 d1 d2 <= n -> d1 <= n /\ length s - length s1 + d2 <= n.
  Proof. intros s s1 d1 d2 n H. unfold seen in H. lia. Qed.
  Lemma seen_further : forall (u u1 v : list I) d1 d2, seen (u ++ v) (u1 ++ v) d1 d2 = seen u u1 d1 d2.
  Proof. intros. unfold seen. rewrite !app_length. lia. Qed.
  Lemma prefix_split : forall (x s u v : list I), x ++ s = u ++ v -> length x <= length u -> exists w, u = x ++ w /\ s = w ++ v.
  Proof.
    induction x as [|c x IH]; intros s u v E Hl; [exists u; auto|]. destruct u as [|c' u]; [cbn in Hl; lia|]. inversion E; subst. destruct (IH s u v) as (w & -> & ->); auto; [cbn in Hl; lia|].
    exists w. auto.
  Qed.

  Lemma derives_local :
    (forall e s r d, derives e s r d -> forall u v, s = u ++ v -> d <= length u -> exists r', derives e u r' d /\ r = further v r') /\
    (forall a s ts s1 d, steps a s ts s1 d -> forall u v, s = u ++ v -> d <= length u -> exists u1, steps a u ts u1 d /\ s1 = u1 ++ v).
  Proof.
    apply derives_steps_ind.
    - intros s u v -> _. eexists. split; [constructor|reflexivity].
    - intros f x s Hx [|c u] v E Hd; cbn in *; [lia|]. inversion E; subst. exists (Some (One c, u)). split; [constructor; assumption|reflexivity].
    - intros f x s Hx [|c u] v E Hd; cbn in *; [lia|]. inversion E; subst. exists None. split; [constructor; assumption|reflexivity].
    - intros f [|c u] v E Hd; [cbn in Hd; lia|discriminate].
    - intros w x s Hw u v E Hd. rewrite (same_items_length Hw) in Hd. destruct (prefix_split _ _ _ _ E Hd) as (y & -> & ->). exists (Some (Span x, y)). split; [constructor; assumption|reflexivity].
    - intros w s Hw u v -> Hd. exists None. split; [|reflexivity]. constructor. intros x y E. apply (Hw x (y ++ v)). rewrite E, app_assoc. reflexivity.
    - intros f x c s Hx Hc u v E Hd. destruct (prefix_split (x ++ [c]) s u v) as (y & -> & ->); [rewrite <- app_assoc; exact E|rewrite app_length; cbn; lia|].
      exists (Some (Span x, c :: y)). rewrite <- app_assoc. split; [constructor; assumption|reflexivity].
    - intros f x Hx u v -> Hd. rewrite app_length in Hd. lia.
    - intros a b s t s1 d1 w s2 d2 D1 IH1 D2 IH2 u v -> Hd. apply seen_bound in Hd. destruct Hd as [Hd1 Hd2]. destruct (IH1 u v eq_refl Hd1) as ([[t' u1]|] & E1 & R1); inversion R1; subst.
      pose proof (derives_length E1) as Hl. cbn in Hl. rewrite !app_length in Hd2.
      destruct (IH2 u1 v eq_refl) as ([[t2 u2]|] & E2 & R2); [lia| |discriminate]. inversion R2; subst. rewrite seen_further. eexists. split; [econstructor; eassumption|reflexivity].
    - intros a b s d D IH u v E Hd. destruct (IH u v E Hd) as ([[t' u1]|] & E1 & R1); [discriminate|]. exists None. split; [constructor; assumption|reflexivity].
    - intros a b s t s1 d1 d2 D1 IH1 D2 IH2 u v -> Hd. apply seen_bound in Hd. destruct Hd as [Hd1 Hd2]. destruct (IH1 u v eq_refl Hd1) as ([[t' u1]|] & E1 & R1); inversion R1; subst.
      pose proof (derives_length E1) as Hl. cbn in Hl. rewrite !app_length in Hd2.
      destruct (IH2 u1 v eq_refl) as ([[t2 u2]|] & E2 & R2); [lia|discriminate|]. rewrite seen_further. exists None. split; [eapply d_seq_not2; eassumption|reflexivity].
    - intros a b s t s1 d1 r d2 D1 IH1 D2 IH2 u v -> Hd. apply seen_bound in Hd. destruct Hd as [Hd1 Hd2]. destruct (IH1 u v eq_refl Hd1) as ([[t' u1]|] & E1 & R1); inversion R1; subst.
      pose proof (derives_length E1) as Hl. cbn in Hl. rewrite !app_length in Hd2.
      destruct (IH2 u1 v eq_refl) as (r' & E2 & R2); [lia|]. rewrite seen_further. exists r'. split; [econstructor; eassumption|assumption].
    - intros a b s d D IH u v E Hd. destruct (IH u v E Hd) as ([[t' u1]|] & E1 & R1); [discriminate|]. exists None. split; [constructor; assumption|reflexivity].
    - intros a b s x d D IH u v E Hd. destruct (IH u v E Hd) as ([y|] & E1 & R1); [|discriminate]. exists (Some y). split; [constructor; assumption|assumption].
    - intros a b s d1 r d2 D1 IH1 D2 IH2 u v E Hd. destruct (IH1 u v E) as ([y|] & E1 & R1); [lia|discriminate|]. destruct (IH2 u v E) as (r' & E2 & R2); [lia|].
      exists r'. split; [eapply d_alt2; eassumption|assumption].
    - intros a s x d D IH u v E Hd. destruct (IH u v E Hd) as ([y|] & E1 & R1); [|discriminate]. exists (Some y). split; [constructor; assumption|assumption].
    - intros a s d D IH u v E Hd. destruct (IH u v E Hd) as ([y|] & E1 & R1); [discriminate|]. subst s. eexists. split; [eapply d_opt_not; eassumption|reflexivity].
    - intros a s t s1 d D IH u v E Hd. destruct (IH u v E Hd) as ([[t' u1]|] & E1 & R1); inversion R1; subst. eexists. split; [econstructor; eassumption|reflexivity].
    - intros a s d D IH u v E Hd. destruct (IH u v E Hd) as ([y|] & E1 & R1); [discriminate|]. exists None. split; [constructor; assumption|reflexivity].
    - intros a x t s1 d D IH u v E Hd. destruct (IH u v E Hd) as ([[t' u1]|] & E1 & R1); inversion R1; subst. rewrite app_assoc in E. apply app_inv_tail in E. subst u.
      eexists. split; [econstructor; eassumption|reflexivity].
    - intros a s d D IH u v E Hd. destruct (IH u v E Hd) as ([y|] & E1 & R1); [discriminate|]. exists None. split; [constructor; assumption|reflexivity].
    - intros a s ts s1 d1 d2 D1 IH1 D2 IH2 u v -> Hd. apply seen_bound in Hd. destruct Hd as [Hd1 Hd2]. destruct (IH1 u v eq_refl Hd1) as (u1 & E1 & ->).
      pose proof (steps_length E1) as Hl. rewrite !app_length in Hd2. destruct (IH2 u1 v eq_refl) as ([y|] & E2 & R2); [lia|discriminate|]. rewrite seen_further.
      eexists. split; [econstructor; eassumption|reflexivity].
    - intros a s ts s1 d1 d2 D1 IH1 Hne D2 IH2 u v -> Hd. apply seen_bound in Hd. destruct Hd as [Hd1 Hd2]. destruct (IH1 u v eq_refl Hd1) as (u1 & E1 & ->).
      pose proof (steps_length E1) as Hl. rewrite !app_length in Hd2. destruct (IH2 u1 v eq_refl) as ([y|] & E2 & R2); [lia|discriminate|]. rewrite seen_further.
      eexists. split; [econstructor; eassumption|reflexivity].
    - intros a s d D IH u v E Hd. destruct (IH u v E Hd) as ([y|] & E1 & R1); [discriminate|]. exists None. split; [constructor; assumption|reflexivity].
    - intros a s ts s1 d D1 IH1 u v E Hd. destruct (IH1 u v E Hd) as (u1 & E1 & ->). eexists. split; [econstructor; eassumption|reflexivity].
    - intros n a s ts s1 d1 d2 D1 IH1 Hn D2 IH2 u v -> Hd. apply seen_bound in Hd. destruct Hd as [Hd1 Hd2]. destruct (IH1 u v eq_refl Hd1) as (u1 & E1 & ->).
      pose proof (steps_length E1) as Hl. rewrite !app_length in Hd2. destruct (IH2 u1 v eq_refl) as ([y|] & E2 & R2); [lia|discriminate|]. rewrite seen_further.
      exists None. split; [eapply d_times_not; eassumption|reflexivity].
    - intros a b s t s1 d1 ts s2 d2 d3 D1 IH1 D2 IH2 D3 IH3 u v -> Hd. apply seen_bound in Hd. destruct Hd as [Hd1 Hd2].
      destruct (IH1 u v eq_refl Hd1) as ([[t' u1]|] & E1 & R1); inversion R1; subst. pose proof (derives_length E1) as Hl. cbn in Hl. rewrite !app_length in Hd2.
      assert (Hd : seen (u1 ++ v) s2 d2 d3 <= length u1) by lia. apply seen_bound in Hd. destruct Hd as [Hd3 Hd4]. destruct (IH2 u1 v eq_refl Hd3) as (u2 & E2 & ->).
      pose proof (steps_length E2) as Hl2. rewrite !app_length in Hd4. destruct (IH3 u2 v eq_refl) as ([y|] & E3 & R3); [lia|discriminate|]. rewrite !seen_further.
      eexists. split; [econstructor; eassumption|reflexivity].
    - intros a b s d D IH u v E Hd. destruct (IH u v E Hd) as ([y|] & E1 & R1); [discriminate|]. exists None. split; [constructor; assumption|reflexivity].
    - intros n s r d D IH u v E Hd. destruct (IH u v E Hd) as (r' & E1 & R1). exists r'. split; [constructor; assumption|assumption].
    - intros a s u v -> _. eexists. split; [constructor|reflexivity].
    - intros a s t s1 d1 ts s2 d2 D1 IH1 D2 IH2 u v -> Hd. apply seen_bound in Hd. destruct Hd as [Hd1 Hd2]. destruct (IH1 u v eq_refl Hd1) as ([[t' u1]|] & E1 & R1); inversion R1; subst.
      pose proof (derives_length E1) as Hl. cbn in Hl. rewrite !app_length in Hd2. destruct (IH2 u1 v eq_refl) as (u2 & E2 & ->); [lia|]. rewrite seen_further.
      eexists. split; [econstructor; eassumption|reflexivity].
  Qed.
End Local.
