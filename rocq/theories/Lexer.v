(** The scanners of expression texts (lexer.l) and event texts (event_lexer.l).

    flex turns a list of regular expressions with actions into a scanner: at each point it takes
    the longest prefix of the remaining text matched by some rule and, among the rules matching
    that prefix, the first one.  [select] below is that contract, computed with derivatives; Flex.v
    has the scanners flex generates from the rules.  A text is the sequence of characters
    before the terminating NUL. *)
From Coq Require Import ZArith NArith Ascii String Bool List Floats.SpecFloat.
From Verif Require Import Base Float.
Import ListNotations.
Local Open Scope string_scope.

(** Regular expressions over characters. *)
Inductive re :=
| RNone
| REps
| RCls (p : ascii -> bool)
| RCat (a b : re)
| RAlt (a b : re)
| RStar (a : re).

(** Does the expression match the empty text? *)
Fixpoint nullable (r : re) : bool :=
  match r with
  | RNone => false
  | REps => true
  | RCls _ => false
  | RCat a b => nullable a && nullable b
  | RAlt a b => nullable a || nullable b
  | RStar _ => true
  end.

(** Concatenation and choice without useless operands. *)
Definition rcat (a b : re) : re :=
  match a, b with
  | RNone, _ => RNone
  | _, RNone => RNone
  | REps, _ => b
  | _, _ => RCat a b
  end.
(** Choice without useless operands. *)
Definition ralt (a b : re) : re :=
  match a, b with
  | RNone, _ => b
  | _, RNone => a
  | _, _ => RAlt a b
  end.

(** What is left to match after the character c. *)
Fixpoint deriv (c : ascii) (r : re) : re :=
  match r with
  | RNone => RNone
  | REps => RNone
  | RCls p => if p c then REps else RNone
  | RCat a b =>
      if nullable a then ralt (rcat (deriv c a) b) (deriv c b) else rcat (deriv c a) b
  | RAlt a b => ralt (deriv c a) (deriv c b)
  | RStar a => rcat (deriv c a) (RStar a)
  end.

(** Length of the longest prefix of s that r matches; k characters are already read and [best]
    is the longest match so far. *)
Fixpoint longest_from (r : re) (s : string) (k : nat) (best : option nat) : option nat :=
  let best' := if nullable r then Some k else best in
  match s with
  | EmptyString => best'
  | String c s' =>
      match deriv c r with
      | RNone => best'
      | r' => longest_from r' s' (S k) best'
      end
  end.

(** Length of the longest prefix of s that r matches. *)
Definition longest (r : re) (s : string) : option nat := longest_from r s 0 None.

(** The action of a rule: no token, a token made from the matched text, or end of input
    (yyterminate). *)
Inductive act (T : Type) := ASkip | ATok (f : string -> T) | AStop.
Arguments ASkip {T}.
Arguments ATok {T} f.
Arguments AStop {T}.

(** A rule of the scanner. *)
Definition rule (T : Type) := (re * act T)%type.

(** The rule flex selects at the start of s: longest match, the earliest on a tie; matches of
    the empty text do not count. *)
Fixpoint select {T} (rs : list (rule T)) (s : string) (best : option (nat * act T)) :
  option (nat * act T) :=
  match rs with
  | [] => best
  | (r, a) :: rs' =>
      let best' :=
        match longest r s with
        | Some (S k) =>
            match best with
            | Some (m, _) => if Nat.ltb m (S k) then Some (S k, a) else best
            | None => Some (S k, a)
            end
        | _ => best
        end in
      select rs' s best'
  end.

(** The first k characters and the others. *)
Fixpoint take (k : nat) (s : string) : string :=
  match k, s with
  | S k', String c s' => String c (take k' s')
  | _, _ => ""
  end.
(** The text after the first k characters. *)
Fixpoint drop (k : nat) (s : string) : string :=
  match k, s with
  | S k', String _ s' => drop k' s'
  | _, _ => s
  end.

(** The tokens of a text up to the end of the input.  flex echoes a character no rule matches and
    goes on; the last rule of both scanners matches every character but the newline, which the
    first rule matches, so that case does not occur. *)
Fixpoint scan_fuel {T} (rs : list (rule T)) (n : nat) (s : string) : list T :=
  match n with
  | O => []
  | S n' =>
      match s with
      | EmptyString => []
      | _ =>
          match select rs s None with
          | None => scan_fuel rs n' (drop 1 s)
          | Some (k, ASkip) => scan_fuel rs n' (drop k s)
          | Some (k, ATok f) => f (take k s) :: scan_fuel rs n' (drop k s)
          | Some (k, AStop) => []
          end
      end
  end.

(** Every round reads at least one character, so the length of the text is enough rounds. *)
Definition scan {T} (rs : list (rule T)) (s : string) : list T :=
  scan_fuel rs (String.length s) s.

(** Character classes of the rules (lexer.l 35, 70-72). *)
Definition between (lo hi : ascii) (c : ascii) : bool :=
  (N_of_ascii lo <=? N_of_ascii c)%N && (N_of_ascii c <=? N_of_ascii hi)%N.
(** lexer.l 71: [0-9]. *)
Definition is_digit (c : ascii) : bool := between "0" "9" c.
(** lexer.l 70: [a-zA-Z_]. *)
Definition is_id_start (c : ascii) : bool :=
  between "a" "z" c || between "A" "Z" c || Ascii.eqb c "_".
(** lexer.l 70: [a-zA-Z0-9_-]. *)
Definition is_id_char (c : ascii) : bool :=
  is_id_start c || is_digit c || Ascii.eqb c "-".
(** The characters of the C escapes \t, \n, of the backslash and of the two quotes. *)
Definition c_tab : ascii := ascii_of_N 9.
(** Newline. *)
Definition c_nl : ascii := ascii_of_N 10.
(** Backslash. *)
Definition c_bs : ascii := ascii_of_N 92.
(** Double quote. *)
Definition c_dq : ascii := ascii_of_N 34.
(** Single quote. *)
Definition c_sq : ascii := ascii_of_N 39.
(** lexer.l 35: [ \t\n]. *)
Definition is_space (c : ascii) : bool :=
  Ascii.eqb c " " || Ascii.eqb c c_tab || Ascii.eqb c c_nl.
(** `.` of flex: every character but the newline. *)
Definition is_dot (c : ascii) : bool := negb (Ascii.eqb c c_nl).

(** A quoted literal text of a rule. *)
Fixpoint rlit (s : string) : re :=
  match s with
  | EmptyString => REps
  | String c s' => RCat (RCls (Ascii.eqb c)) (rlit s')
  end.
(** r+ *)
Definition rplus (r : re) : re := RCat r (RStar r).
(** lexer.l 68-69: a quote, escapes or characters other than the quote and the backslash, the
    quote again. *)
Definition rquoted (q : ascii) : re :=
  RCat (RCls (Ascii.eqb q))
    (RCat
       (RStar
          (RAlt (RCat (RCls (Ascii.eqb c_bs)) (RCls is_dot))
                (RCls (fun c => negb (Ascii.eqb c q) && negb (Ascii.eqb c c_bs)))))
       (RCls (Ascii.eqb q))).
(** lexer.l 70. *)
Definition rident : re := RCat (RCls is_id_start) (RStar (RCls is_id_char)).
(** lexer.l 71. *)
Definition rint : re := rplus (RCls is_digit).
(** lexer.l 72. *)
Definition rflt : re :=
  RCat (rplus (RCls is_digit)) (RCat (RCls (Ascii.eqb ".")) (RStar (RCls is_digit))).

(** Value of a sequence of decimal digits. *)
Fixpoint digits (s : string) (acc : Z) : Z :=
  match s with
  | EmptyString => acc
  | String c s' => digits s' (10 * acc + (Z.of_N (N_of_ascii c) - 48))%Z
  end.

(** lexer.l 12 [SAVE_INTEGER]: strtoll on digits; a value out of range becomes INT64_MAX. *)
Definition strtoll (s : string) : Z := Z.min (digits s 0) INT64_MAX.

(** The digits before and after the point. *)
Fixpoint split_point (s : string) : string * string :=
  match s with
  | EmptyString => ("", "")
  | String c s' =>
      if Ascii.eqb c "." then ("", s')
      else let '(a, b) := split_point s' in (String c a, b)
  end.

(** The double nearest to m / 10^k (ties to even): the quotient is computed with at least 64
    significant bits and one more bit tells whether it is exact. *)
Definition dec_flt (m : Z) (k : nat) : flt :=
  if (m =? 0)%Z then S754_zero false
  else
    let d := (10 ^ Z.of_nat k)%Z in
    let s := Z.max 0 (Z.log2 d - Z.log2 m + 66)%Z in
    let q := (m * 2 ^ s / d)%Z in
    let rest := (m * 2 ^ s mod d)%Z in
    binary_normalize prec64 emax64 (2 * q + (if rest =? 0 then 0 else 1))%Z (- s - 1)%Z false.

(** lexer.l 13 [SAVE_FLOAT]: atof on digits with a point; glibc rounds to nearest. *)
Definition atof (s : string) : flt :=
  let '(a, b) := split_point s in dec_flt (digits (a ++ b) 0) (String.length b).

(** lexer.l 6-10 [SAVE_STRING]: the text between the quotes; escapes are not decoded. *)
Definition unquote (s : string) : string := take (String.length s - 2) (drop 1 s).

(** parser.y 53-67: the tokens of an expression. *)
Inductive token :=
| KMinus | KEq | KNe | KGt | KGe | KLt | KLe | KLParen | KRParen | KComma
| KNotIn | KIn | KOneOf | KNoneOf | KAllOf | KAnd | KOr | KNot
| KFreqCap | KSegWithin | KSegBefore | KGeo | KContains | KStartsWith | KEndsWith
| KIsNotNull | KIsNull | KIsEmpty | KTrue | KFalse
| KStr (s : string) | KIdent (s : string) | KInt (z : Z) | KFlt (f : flt).

(** A rule for a fixed text. *)
Definition kw (s : string) (t : token) : rule token := (rlit s, ATok (fun _ => t)).

(** lexer.l 35-73. *)
Definition expr_rules : list (rule token) :=
  [ (RCls is_space, ASkip);
    kw "within_frequency_cap" KFreqCap;
    kw "segment_within" KSegWithin;
    kw "segment_before" KSegBefore;
    kw "geo_within_radius" KGeo;
    kw "contains" KContains;
    kw "starts_with" KStartsWith;
    kw "ends_with" KEndsWith;
    kw "-" KMinus;
    kw "=" KEq;
    kw "<>" KNe;
    kw ">" KGt;
    kw ">=" KGe;
    kw "<" KLt;
    kw "<=" KLe;
    kw "(" KLParen;
    kw ")" KRParen;
    kw "," KComma;
    kw "not in" KNotIn;
    kw "in" KIn;
    kw "one of" KOneOf;
    kw "none of" KNoneOf;
    kw "all of" KAllOf;
    kw "&&" KAnd;
    kw "and" KAnd;
    kw "||" KOr;
    kw "or" KOr;
    kw "not" KNot;
    kw "is not null" KIsNotNull;
    kw "is null" KIsNull;
    kw "is empty" KIsEmpty;
    kw "true" KTrue;
    kw "false" KFalse;
    (rquoted c_dq, ATok (fun s => KStr (unquote s)));
    (rquoted c_sq, ATok (fun s => KStr (unquote s)));
    (rident, ATok KIdent);
    (rint, ATok (fun s => KInt (strtoll s)));
    (rflt, ATok (fun s => KFlt (atof s)));
    (RCls is_dot, AStop) ].

(** The tokens the parser reads from an expression text. *)
Definition lex (s : string) : list token := scan expr_rules s.

(** event_parser.y 53-66: the tokens of an event. *)
Inductive etoken :=
| JMinus | JLSq | JRSq | JLCu | JRCu | JComma | JColon | JTrue | JFalse | JNull
| JStr (s : string) | JInt (z : Z) | JFlt (f : flt).

(** A rule for a fixed text. *)
Definition ekw (s : string) (t : etoken) : rule etoken := (rlit s, ATok (fun _ => t)).

(** event_lexer.l 34-50. *)
Definition event_rules : list (rule etoken) :=
  [ (RCls is_space, ASkip);
    ekw "-" JMinus;
    ekw "[" JLSq;
    ekw "]" JRSq;
    ekw "{" JLCu;
    ekw "}" JRCu;
    ekw "," JComma;
    ekw ":" JColon;
    ekw "true" JTrue;
    ekw "false" JFalse;
    ekw "null" JNull;
    (rquoted c_dq, ATok (fun s => JStr (unquote s)));
    (rquoted c_sq, ATok (fun s => JStr (unquote s)));
    (rint, ATok (fun s => JInt (strtoll s)));
    (rflt, ATok (fun s => JFlt (atof s)));
    (RCls is_dot, AStop) ].

(** The tokens the parser reads from an event text. *)
Definition elex (s : string) : list etoken := scan event_rules s.
