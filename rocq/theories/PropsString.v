(** Properties C04, C05, C06, C07 (strings): string encoding and decoding. *)
From Verif Require Import Bytes Utf8Model ParseModel StringModel SpecJson SpecString ParseFacts Utf8Facts StringFacts.

(** C04: decoding a JSON string token gives the UTF-8 text of exactly the
    characters it denotes.  [parse_string_unquote] is what every decoder of
    strings calls; [buf] is its scratch buffer and [rest] what follows the
    token.  AppendUnquote appends that text to its argument. *)
Theorem C04_decoded_characters : forall body, str_body body ->
  exists l t, str_denotes body l /\ utf8 l t /\
    (forall rest buf, exists isNew : bool,
       parse_string_unquote (34 :: body ++ 34 :: rest) buf = QOk (if isNew then buf ++ t else t) rest isNew) /\
    (forall b, append_unquote (34 :: body ++ [34]) b = Some (b ++ t)).
Proof.
  intros body SB. destruct (str_body_denotes body SB) as [l D]. exists l, (utf8_text l).
  split; [exact D|]. split; [apply utf8_text_utf8; eapply str_denotes_scalar; exact D|]. split.
  - intros rest buf. pose proof (parse_string_unquote_ok body l rest buf SB D) as H.
    cbn [app] in H. rewrite <- app_assoc in H. cbn [app] in H. rewrite H.
    destruct (plain body); [exists false|exists true]; reflexivity.
  - intros b. unfold append_unquote. pose proof (parse_string_unquote_ok body l [] b SB D) as H.
    rewrite app_nil_r in H. rewrite H. destruct (plain body); reflexivity.
Qed.
Print Assumptions C04_decoded_characters.

(** The denotation of a string token is unique, so C04 pins the result down. *)
Theorem C04_denotation_unique : forall body l l', str_denotes body l -> str_denotes body l' -> l = l'.
Proof. intros body l l' H H'. exact (str_denotes_det _ _ H _ H'). Qed.
Print Assumptions C04_denotation_unique.

(** A surrogate pair, a lone surrogate, a short escape, an invalid byte. *)
Example C04_case :
  unquote (bs """\ud83d\ude00a\ud800\n" ++ [0xC3; 34]) =
  Some ([0xF0; 0x9F; 0x98; 0x80; 97; 0xEF; 0xBF; 0xBD; 10; 0xEF; 0xBF; 0xBD]).
Proof. vm_compute. reflexivity. Qed.

(** C05: decoding an encoded string returns it, invalid bytes being replaced. *)
Theorem C05_string_round_trip : forall html s, wf s ->
  exists l t, utf8_lossy l s /\ utf8 l t /\ unquote (do_encode_string html [] s) = Some t.
Proof.
  intros html s W. destruct (do_encode_string_ok html s W) as (out & l & R & E). exists l, (utf8_text l).
  pose proof (enc_rel_lossy _ _ _ _ R) as LS. split; [exact LS|].
  split; [apply utf8_text_utf8; eapply utf8_lossy_scalar; exact LS|].
  rewrite (E []). cbn [app]. unfold unquote, append_unquote.
  pose proof (parse_string_unquote_ok out l [] [] (enc_rel_body _ _ _ _ R) (enc_rel_denotes _ _ _ _ R)) as H.
  rewrite app_nil_r in H. rewrite H. destruct (plain out); reflexivity.
Qed.
Print Assumptions C05_string_round_trip.

Theorem C05_valid_utf8_unchanged : forall html s, valid_utf8 s -> unquote (do_encode_string html [] s) = Some s.
Proof.
  intros html s [l U]. destruct (C05_string_round_trip html s (utf8_wf _ _ U)) as (l' & t & L & U' & E).
  rewrite E. f_equal. rewrite (utf8_lossy_det _ _ _ L (utf8_lossy_of_utf8 _ _ U)) in U'.
  rewrite (utf8_is_text _ _ U), (utf8_is_text _ _ U'). reflexivity.
Qed.
Print Assumptions C05_valid_utf8_unchanged.

Example C05_case : unquote (do_encode_string true [] (bs "<a&b>" ++ [0; 0xE2; 0x80; 0xA8; 0xFF; 34; 92])) =
  Some (bs "<a&b>" ++ [0; 0xE2; 0x80; 0xA8; 0xEF; 0xBF; 0xBD; 34; 92]).
Proof. vm_compute. reflexivity. Qed.

(** C06: the encoding of any byte string is a JSON string token, with no raw
    control byte, and valid UTF-8; it is appended to the buffer. *)
Theorem C06_encoded_string_is_token : forall html s b, wf s ->
  exists v, do_encode_string html b s = b ++ v /\ string_lit v /\ Forall (fun c => 0x20 <= c) v /\ valid_utf8 v.
Proof.
  intros html s b W. destruct (do_encode_string_ok html s W) as (out & l & R & E).
  exists (34 :: out ++ [34]). split; [apply E|].
  destruct (enc_rel_utf8 _ _ _ _ R) as (lo & U & F). split; [|split].
  - exists out. split; [reflexivity|]. eapply enc_rel_body. exact R.
  - pose proof (enc_rel_body _ _ _ _ R) as SB.
    constructor; [lia|]. apply Forall_app. split; [|constructor; [lia|constructor]].
    clear - SB. induction SB as [|c s B1 B2 B3 SB IH|e s I SB IH|h1 h2 h3 h4 s H1 H2 H3 H4 SB IH].
    + constructor.
    + constructor; [lia|exact IH].
    + cbn [In] in I. do 2 (constructor; [lia|]). exact IH.
    + unfold hex_digit in *. do 6 (constructor; [lia|]). exact IH.
  - exists ([34] ++ lo ++ [34]). change (34 :: out ++ [34]) with ([34] ++ out ++ [34]).
    assert (Q : utf8 [34] [34]) by (apply utf8_ascii; constructor; [lia|constructor]).
    apply utf8_app; [exact Q|]. apply utf8_app; [exact U|exact Q].
Qed.
Print Assumptions C06_encoded_string_is_token.

(** C07 for strings: in HTML mode no '<', '>', '&', and in both modes no
    U+2028 or U+2029 and no control character, among the output characters. *)
Theorem C07_string_html_safe : forall html s, wf s ->
  exists lo, utf8 lo (do_encode_string html [] s) /\
    Forall (fun r => 0x20 <= r /\ r <> 0x2028 /\ r <> 0x2029 /\ (html = true -> r <> 60 /\ r <> 62 /\ r <> 38)) lo.
Proof.
  intros html s W. destruct (do_encode_string_ok html s W) as (out & l & R & E).
  destruct (enc_rel_utf8 _ _ _ _ R) as (lo & U & F). exists ([34] ++ lo ++ [34]). rewrite (E []). split.
  - cbn [app]. change (34 :: out ++ [34]) with ([34] ++ out ++ [34]).
    change (34 :: lo ++ [34]) with ([34] ++ lo ++ [34]).
    assert (Q : utf8 [34] [34]) by (apply utf8_ascii; constructor; [lia|constructor]).
    apply utf8_app; [exact Q|]. apply utf8_app; [exact U|exact Q].
  - apply Forall_app. split; [constructor; [lia|constructor]|]. apply Forall_app. split; [exact F|constructor; [lia|constructor]].
Qed.
Print Assumptions C07_string_html_safe.

Example C06_C07_case : do_encode_string true (bs "x") (bs "</a>" ++ [7; 10; 0xE2; 0x80; 0xA9; 0x80]) =
  bs "x""\u003c/a\u003e\u0007\n\u2029\ufffd""".
Proof. vm_compute. reflexivity. Qed.
