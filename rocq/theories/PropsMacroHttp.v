(** Property C40, applied: what [parse!] makes of the invocations in examples/http_parser.rs is what [Http.v] has. *)
From Coq Require Import List Bool Arith.
From Coq.Init Require Import Byte.
From Verif Require Import Base Parsers Combinators Ascii Macro SpecMacro Http MacroHttp.
Import ListNotations.

Lemma http_rustc_lawful : lawful http_rustc.
Proof.
  split; cbn.
  - reflexivity.
  - intros [|[] [|[] v]] p rest H; inversion H; reflexivity.
  - discriminate.
  - reflexivity.
  - discriminate.
  - intros [|[] [|[] [|]]] H; try discriminate; cbn; intuition discriminate.
  - discriminate.
  - reflexivity.
Qed.

Lemma bind_map : forall I T U V E (f : T -> U) (r : pres I T E) (k : input I -> U -> pres I V E),
  bind (fun e => e) (map f r) k = bind (fun e => e) r (fun i t => k i (f t)).
Proof. intros. destruct r; reflexivity. Qed.
Lemma map_bind : forall I T U V E (f : U -> V) (r : pres I T E) (k : input I -> T -> pres I U E),
  map f (bind (fun e => e) r k) = bind (fun e => e) r (fun i t => map f (k i t)).
Proof. intros. destruct r; cbn; auto. destruct (k _ _); reflexivity. Qed.
Lemma bind_ext : forall I T U E (r : pres I T E) (k k' : input I -> T -> pres I U E), (forall i t, k i t = k' i t) ->
  bind (fun e => e) r k = bind (fun e => e) r k'.
Proof. intros. destruct r; cbn; auto. rewrite H. reflexivity. Qed.

Lemma or_map : forall I T U E (f : T -> U) (p q : parser I T E) p' q' i, (forall i, p' i = map f (p i)) -> (forall i, q' i = map f (q i)) ->
  or_ p' q' i = map f (or_ p q i).
Proof. intros. unfold or_. rewrite H, H0. destruct (p i); cbn [map]; auto. destruct (last i); reflexivity. Qed.

Ltac statements := repeat (rewrite bind_map, map_bind; apply bind_ext; intros).

(** For every input, with the feature verbose_error or without. *)
Theorem C40_http : forall verbose fuel,
  lawful http_rustc /\
  (exists p, invoke verbose fuel t_http_version = Some p /\ forall i, p i = map HBytes (http_version verbose i)) /\
  (exists p, invoke verbose fuel t_request_line = Some p /\ forall i, p i = map HRequest (request_line verbose i)) /\
  (exists p, invoke verbose fuel t_message_header_line = Some p /\ forall i, p i = map HBytes (message_header_line verbose i)) /\
  (exists p, invoke verbose fuel t_message_header = Some p /\ forall i, p i = map HHeader (message_header verbose fuel i)) /\
  (exists p, invoke verbose fuel t_request = Some p /\ forall i, p i = map (fun x => HPair (fst x) (snd x)) (request_fuel verbose fuel i)) /\
  (exists p, invoke verbose fuel t_end_of_line = Some p /\
    forall i, or_ p (lift HByte (token verbose byte_eqb x0a)) i = map HByte (end_of_line verbose i)).
Proof.
  intros verbose fuel. split; [exact http_rustc_lawful|].
  assert (E : forall ts c, expand_parse http_rustc (Some ts) = Some c -> invoke verbose fuel ts = Some (fun i => eval (hmeaning verbose fuel) c [] [i])).
  { intros ts c H. unfold invoke. rewrite H. reflexivity. }
  repeat split; eexists; (split; [apply E; vm_compute; reflexivity|]); intros i.
  - unfold http_version, stmt. cbn [eval with_input nth_error bound]. cbn -[take_while1 string bind map]. unfold lift. statements. reflexivity.
  - unfold request_line, stmt. cbn -[take_while1 http_version bind map]. unfold lift. statements. reflexivity.
  - unfold message_header_line, stmt. cbn -[take_while1 take_till end_of_line bind map]. unfold lift. statements. reflexivity.
  - unfold message_header, stmt. cbn -[take_while1 many1 token bind map]. unfold lift. statements. reflexivity.
  - unfold request_fuel, stmt. cbn -[request_line end_of_line many bind map]. unfold lift. statements. reflexivity.
  - unfold end_of_line. apply or_map; [|reflexivity]. clear i. intros i. unfold stmt. cbn -[token bind map]. unfold lift. statements. reflexivity.
Qed.
Print Assumptions C40_http.
