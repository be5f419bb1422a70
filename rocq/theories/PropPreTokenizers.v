(** C53: the pre-tokenizers that cut text. *)
From Verif Require Import Base BaseProofs Utf8Model Utf8Proofs PatternModel NormalizedModel NormalizedSpec BpeModel PreTokenizedModel
  PreTokenizedSpec PreTokenizerModel PreTokenizerSpec PreTokenizerProofs.
Open Scope Z_scope.

(** Unicode tables for the examples: ASCII letters and digits, "Latin" for letters and
    Greek for U+03B1..U+03C9. *)
Definition ascii_letter (c : N) : bool := ((65 <=? c) && (c <=? 90) || (97 <=? c) && (c <=? 122))%N.
Definition u0 : unicode :=
  Uni (fun c => (c =? 161)%N) (fun c => (48 <=? c) && (c <=? 57))%N ascii_letter
    (fun c => if ascii_letter c then [76; 97; 116; 105; 110]%N
              else if ((945 <=? c) && (c <=? 969))%N then [71; 114; 101; 101; 107]%N
              else if ((48 <=? c) && (c <=? 57))%N then [67; 111; 109; 109; 111; 110]%N else []).

(** Every pre-tokenizer that only cuts (and every sequence of them) works on every
    pre-tokenized string whose untouched pieces are parts of the original text; it leaves
    pieces with tokens alone, replaces every other piece by the documented pieces of its
    text, and each new piece is again a part of the original text. *)
Theorem C53_pieces : forall u t f p, documented u t = Some f -> all_sit p ->
  exists p', pre_tokenize u t p = Ok p' /\ all_sit p' /\ repieced f p p'.
Proof. exact documented_ok. Qed.
Print Assumptions C53_pieces.

(** The classes of characters the documentation speaks of, by enumeration. *)
Definition ascii_punctuation : list N :=   (* U+0021-2F, U+003A-40, U+005B-60, U+007B-7E *)
  [33; 34; 35; 36; 37; 38; 39; 40; 41; 42; 43; 44; 45; 46; 47; 58; 59; 60; 61; 62; 63; 64; 91; 92; 93; 94; 95; 96; 123; 124; 125; 126]%N.
Definition ascii_word : list N :=          (* 0-9 A-Z _ a-z *)
  [48; 49; 50; 51; 52; 53; 54; 55; 56; 57;
   65; 66; 67; 68; 69; 70; 71; 72; 73; 74; 75; 76; 77; 78; 79; 80; 81; 82; 83; 84; 85; 86; 87; 88; 89; 90; 95;
   97; 98; 99; 100; 101; 102; 103; 104; 105; 106; 107; 108; 109; 110; 111; 112; 113; 114; 115; 116; 117; 118; 119; 120; 121; 122]%N.
Theorem C53_classes : forall u c,
  (is_punct u c = true <-> In c ascii_punctuation \/ un_punct u c = true) /\
  (is_white c = true <-> In c [32; 9; 10; 13]%N) /\
  (re_space c = true <-> In c [9; 10; 12; 13; 32]%N) /\
  (re_word c = true <-> In c ascii_word) /\
  fixed_script u c =
    (if N.eq_dec c 12540 then [72; 97; 110]%N                              (* U+30FC: Han *)
     else if N.eq_dec c 32 then [65; 110; 121]%N                           (* space: Any *)
     else if in_dec str_eq_dec (un_script u c) [[72; 105; 114; 97; 103; 97; 110; 97]; [75; 97; 116; 97; 107; 97; 110; 97]]%N
     then [72; 97; 110]%N                                                   (* Hiragana, Katakana: Han *)
     else un_script u c).
Proof. exact classes_spec. Qed.
Print Assumptions C53_classes.

(** On a fresh text: exactly the documented pieces. *)
Theorem C53_fresh : forall u t f rs, Forall scalar rs -> documented u t = Some f ->
  exists p', pre_tokenize u t (pt_new (encode rs)) = Ok p' /\ all_sit p' /\ pt_orig p' = encode rs /\
    map sp_text (pt_splits p') = map encode (f rs).
Proof. exact fresh_documented. Qed.
Print Assumptions C53_fresh.

(** The BERT, white space, punctuation, digits and delimiter pre-tokenizers: the
    concatenated pieces are the text without exactly the documented separators. *)
Theorem C53_text_partial : forall u t rs, Forall scalar rs ->
  match t with PTBert | PTWhitespace | PTWhitespaceSplit | PTPunctuation _ | PTDigits _ | PTDelimiter _ => True | _ => False end ->
  exists p', pre_tokenize u t (pt_new (encode rs)) = Ok p' /\
    text_of (pt_splits p') = encode (filter (fun c => negb (separator u t c)) rs).
Proof.
  intros u t rs Sc T.
  assert (G : forall f, documented u t = Some f -> concat (f rs) = filter (fun c => negb (separator u t c)) rs ->
    exists p', pre_tokenize u t (pt_new (encode rs)) = Ok p' /\ text_of (pt_splits p') = encode (filter (fun c => negb (separator u t c)) rs)).
  { intros f D E. rewrite <- E. now apply fresh_text. }
  assert (A : filter (fun _ => negb false) rs = rs) by (apply filter_all, Forall_forall; reflexivity).
  destruct t as [| | |b|i|d|q b i| |r g s|x|ts]; try destruct T.
  - apply (G _ eq_refl), bert_text.
  - apply (G _ eq_refl), whitespace_text.
  - apply (G _ eq_refl), words_text.
  - destruct b; try (apply (G _ eq_refl); cbn [separator]; rewrite A; now apply cut_up_text). apply (G _ eq_refl), words_text.
  - apply (G _ eq_refl). cbn [separator]. rewrite A. apply cut_up_text. now destruct i.
  - apply (G _ eq_refl), words_text.
Qed.
Print Assumptions C53_text_partial.

(** The script pre-tokenizer: nothing is lost of a text that starts with a character of
    some script. *)
Theorem C53_script_partial : forall u r rs, Forall scalar (r :: rs) -> fixed_script u r <> ANY -> fixed_script u r <> [] ->
  exists p', pre_tokenize u PTScript (pt_new (encode (r :: rs))) = Ok p' /\ text_of (pt_splits p') = encode (r :: rs).
Proof.
  intros u r rs Sc H1 H2. destruct (fresh_text u PTScript _ (r :: rs) Sc eq_refl) as (p' & E & T). exists p'. split; [exact E|].
  rewrite T, script_text. apply str_eqb_neq in H1, H2. rewrite H1, H2. reflexivity.
Qed.
Print Assumptions C53_script_partial.

(** Any other text loses at least its first character: white space or characters without a
    script at the start of the text are dropped. *)
Theorem C53_script_refuted : forall u r rs, Forall scalar (r :: rs) -> fixed_script u r = ANY \/ fixed_script u r = [] ->
  exists p' lost, pre_tokenize u PTScript (pt_new (encode (r :: rs))) = Ok p' /\
    encode (r :: rs) = encode (r :: lost) ++ text_of (pt_splits p') /\ text_of (pt_splits p') <> encode (r :: rs).
Proof.
  intros u r rs Sc H. destruct (fresh_text u PTScript _ (r :: rs) Sc eq_refl) as (p' & E & T).
  destruct (script_short (fixed_script u) r rs H) as (l & El). exists p', l. split; [exact E|]. rewrite T.
  rewrite El at 1. split; [apply encode_app|]. intros X. apply (f_equal (@length N)) in X. rewrite El in X at 2.
  rewrite encode_app, app_length, encode_cons, app_length in X. pose proof (encode_rune_nonempty r) as Ne.
  destruct (encode_rune r); [congruence|]. cbn in X. lia.
Qed.
Print Assumptions C53_script_refuted.

(** Non-vacuity: a text of several scripts with spaces, punctuation and digits. *)
Definition text0 : list N := [104; 105; 44; 32; 945; 98; 161; 10; 52; 50; 33]%N.   (* hi, αb¡\n42! *)
Example text0_scalar : Forall scalar text0.
Proof. unfold text0. repeat (constructor; [vm_compute; intuition congruence|]). constructor. Qed.
Example C53_bert : documented u0 PTBert = Some (bert_pieces u0) /\
  bert_pieces u0 text0 = [[104; 105]; [44]; [945; 98]; [161]; [52; 50]; [33]]%N.
Proof. split; reflexivity. Qed.
Example C53_whitespace : whitespace_pieces text0 = [[104; 105]; [44]; [945]; [98]; [161]; [52; 50]; [33]]%N.
Proof. reflexivity. Qed.
Example C53_punctuation : cut_up MergedWithPrevious (is_punct u0) text0 = [[104; 105; 44]; [32; 945; 98; 161]; [10; 52; 50; 33]]%N.
Proof. reflexivity. Qed.
Example C53_digits : cut_up Isolated (un_number u0) text0 = [[104; 105; 44; 32; 945; 98; 161; 10]; [52]; [50]; [33]]%N /\
  cut_up Contiguous (un_number u0) text0 = [[104; 105; 44; 32; 945; 98; 161; 10]; [52; 50]; [33]]%N.
Proof. split; reflexivity. Qed.
Example C53_script : script_pieces (fixed_script u0) (32 :: text0)%N = [[104; 105]; [44; 32]; [945]; [98]; [161; 10]; [52; 50]; [33]]%N.
Proof. reflexivity. Qed.
Example C53_sequence : exists f, documented u0 (PTSequence [PTWhitespaceSplit; PTDigits true; PTPunctuation Isolated]) = Some f /\
  f text0 = [[104; 105]; [44]; [945; 98]; [161]; [52]; [50]; [33]]%N.
Proof. eexists. split; reflexivity. Qed.
