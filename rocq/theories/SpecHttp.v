(** The format that examples/http_parser.rs reads (C41, C42), without reference to any parser.
    It is the request of RFC 2616 without body, with three liberties: fields may be separated by several spaces, lines may end in a
    bare line feed, and the URI is any non-empty sequence of bytes other than the space. *)
From Coq Require Import List NArith.
From Coq.Init Require Import Byte.
From Coq.Strings Require Import Byte.
From Verif Require Import Buffer SpecBuffer Http.
Import ListNotations.

Set Implicit Arguments.

(** RFC 2616, 2.2: the separators except the tabulator, which is a control character. *)
Definition separators : list byte :=
  ["("; ")"; "<"; ">"; "@"; ","; ";"; ":"; x5c; x22; "/"; "["; "]"; "?"; "="; "{"; "}"; " "]%byte.

(** Any printable ASCII byte that is no separator.  127 is let through, though RFC 2616 makes it a control character. *)
Definition token_byte (c : byte) : Prop := (33 <= Byte.to_N c <= 127)%N /\ ~ In c separators.
Definition blank (c : byte) : Prop := In c [" "; x09]%byte.
Definition line_byte (c : byte) : Prop := ~ In c [x0d; x0a].
Definition version_byte (c : byte) : Prop := In c ["0"; "1"; "2"; "3"; "4"; "5"; "6"; "7"; "8"; "9"; "."]%byte.

(** A non-empty sequence of such bytes. *)
Definition some (P : byte -> Prop) (w : list byte) : Prop := w <> [] /\ Forall P w.

Definition line_end (w : list byte) : Prop := w = [x0d; x0a] \/ w = [x0a].

(** The text [w] of a line of a header's value [v]: blanks, then the value, which starts with no blank. *)
Definition value_line (w v : list byte) : Prop :=
  exists b e, w = b ++ v ++ e /\ some blank b /\ Forall line_byte v /\ (forall c v', v = c :: v' -> ~ blank c) /\ line_end e.

Definition header (w : list byte) (h : header_t) : Prop :=
  exists ls, w = name h ++ ":"%byte :: concat ls /\ some token_byte (name h) /\ ls <> [] /\ Forall2 value_line ls (value h).

Definition message (w : list byte) (q : request_t * list header_t) : Prop :=
  exists s1 s2 e1 hs e2,
    w = method (fst q) ++ s1 ++ uri (fst q) ++ s2 ++ ["H"; "T"; "T"; "P"; "/"]%byte ++ version (fst q) ++ e1 ++ concat hs ++ e2 /\
    some token_byte (method (fst q)) /\ some (fun c => c = " "%byte) s1 /\ some (fun c => c <> " "%byte) (uri (fst q)) /\
    some (fun c => c = " "%byte) s2 /\ some version_byte (version (fst q)) /\ line_end e1 /\ Forall2 header hs (snd q) /\ line_end e2.

(** The data is a sequence of messages. *)
Definition messages (data : list byte) (qs : list (request_t * list header_t)) : Prop :=
  exists ws, data = concat ws /\ Forall2 message ws qs.

(** A standard text of a request. *)
Definition render_line (v : list byte) : list byte := " "%byte :: v ++ [x0d; x0a].
Definition render_header (h : header_t) : list byte := name h ++ ":"%byte :: flat_map render_line (value h).
Definition render (q : request_t * list header_t) : list byte :=
  method (fst q) ++ [" "]%byte ++ uri (fst q) ++ [" "; "H"; "T"; "T"; "P"; "/"]%byte ++ version (fst q) ++ [x0d; x0a] ++
  flat_map render_header (snd q) ++ [x0d; x0a].

(** Requests that can be written down. *)
Definition proper_line (v : list byte) : Prop := Forall line_byte v /\ (forall c v', v = c :: v' -> ~ blank c).
Definition proper_header (h : header_t) : Prop := some token_byte (name h) /\ value h <> [] /\ Forall proper_line (value h).
Definition proper (q : request_t * list header_t) : Prop :=
  some token_byte (method (fst q)) /\ some (fun c => c <> " "%byte) (uri (fst q)) /\ some version_byte (version (fst q)) /\
  Forall proper_header (snd q).

(** The size of the buffer of the example's [main]: 6 KiB. *)
Definition main_room : nat := 6 * 1024.

(** A source that delivers exactly the data [d] from its state [s] on, in reads of any size, and then fails (whatever it does after that);
    it does not report its end before.  [F] is any relation that is kept by every read. *)
Definition breaks {St I} (ds : data_source St I) (F : St -> list I -> Prop) : Prop :=
  forall s d, F s d -> forall n s' w r, ds_read ds s n = (s', w, r) ->
    match r with
    | IoErr _ => True
    | IoOk k => k <= n /\ exists c d', d = c ++ d' /\ length c = k /\ writes w c /\ F s' d' /\ (k = 0 -> n = 0)
    end.
