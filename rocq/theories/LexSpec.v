(** What a flex scanner does, stated with the languages of the regular expressions, and the texts
    that spell a sequence of tokens. *)
From Coq Require Import ZArith NArith Ascii String Bool List.
From Verif Require Import Base Float Lexer.
Import ListNotations.
Local Open Scope string_scope.

(** The texts a regular expression matches. *)
Inductive lang : re -> string -> Prop :=
| l_eps : lang REps ""
| l_cls p c : p c = true -> lang (RCls p) (String c "")
| l_cat a b u v : lang a u -> lang b v -> lang (RCat a b) (u ++ v)
| l_alt_l a b u : lang a u -> lang (RAlt a b) u
| l_alt_r a b u : lang b u -> lang (RAlt a b) u
| l_star_nil a : lang (RStar a) ""
| l_star_more a u v : lang a u -> lang (RStar a) v -> lang (RStar a) (u ++ v).

(** The rule with action a is the one for the prefix u of u ++ v: it matches u, no earlier rule
    matches u, and no rule matches a longer prefix. *)
Definition chosen {T} (rs : list (rule T)) (u v : string) (a : act T) : Prop :=
  u <> "" /\
  (exists pre r post, rs = (pre ++ (r, a) :: post)%list /\ lang r u /\
     forall r' a', In (r', a') pre -> ~ lang r' u) /\
  (forall r' a' u' v', In (r', a') rs -> u' ++ v' = u ++ v -> lang r' u' ->
     (String.length u' <= String.length u)%nat).

(** The tokens of a text. *)
Inductive flex {T} (rs : list (rule T)) : string -> list T -> Prop :=
| fx_end : flex rs "" []
| fx_skip u v ts : chosen rs u v ASkip -> flex rs v ts -> flex rs (u ++ v) ts
| fx_tok u v f ts : chosen rs u v (ATok f) -> flex rs v ts -> flex rs (u ++ v) (f u :: ts)
| fx_stop u v : chosen rs u v AStop -> flex rs (u ++ v) [].

(** * Spellings *)

(** All characters of a text satisfy p. *)
Fixpoint all_chars (p : ascii -> bool) (s : string) : bool :=
  match s with "" => true | String c s' => p c && all_chars p s' end.

(** What distinguishes the two scanners: the fixed texts with their tokens, the tokens of strings
    and numbers, and the token of identifiers if there are any. *)
Record lexicon (T : Type) := mkLex {
  lx_fixed : list (string * T);
  lx_str : string -> T;
  lx_ident : option (string -> T);
  lx_int : Z -> T;
  lx_flt : flt -> T }.
Arguments mkLex {T}. Arguments lx_fixed {T}. Arguments lx_str {T}. Arguments lx_ident {T}.
Arguments lx_int {T}. Arguments lx_flt {T}.

(** lexer.l 36-67: the fixed texts of expressions. *)
Definition expr_lexicon : lexicon token :=
  mkLex
    [("within_frequency_cap", KFreqCap); ("segment_within", KSegWithin);
     ("segment_before", KSegBefore); ("geo_within_radius", KGeo); ("contains", KContains);
     ("starts_with", KStartsWith); ("ends_with", KEndsWith); ("-", KMinus); ("=", KEq);
     ("<>", KNe); (">", KGt); (">=", KGe); ("<", KLt); ("<=", KLe); ("(", KLParen);
     (")", KRParen); (",", KComma); ("not in", KNotIn); ("in", KIn); ("one of", KOneOf);
     ("none of", KNoneOf); ("all of", KAllOf); ("&&", KAnd); ("and", KAnd); ("||", KOr);
     ("or", KOr); ("not", KNot); ("is not null", KIsNotNull); ("is null", KIsNull);
     ("is empty", KIsEmpty); ("true", KTrue); ("false", KFalse)]
    KStr (Some KIdent) KInt KFlt.

(** event_lexer.l 35-44: the fixed texts of events. *)
Definition event_lexicon : lexicon etoken :=
  mkLex
    [("-", JMinus); ("[", JLSq); ("]", JRSq); ("{", JLCu); ("}", JRCu); (",", JComma);
     (":", JColon); ("true", JTrue); ("false", JFalse); ("null", JNull)]
    JStr None JInt JFlt.

(** A text between quotes q: a backslash is followed by a character that is not a newline, and
    other characters are not the quote. *)
Fixpoint quotable (q : ascii) (s : string) : bool :=
  match s with
  | "" => true
  | String c s' =>
      if Ascii.eqb c c_bs then
        match s' with
        | "" => false
        | String d s'' => negb (Ascii.eqb d c_nl) && quotable q s''
        end
      else negb (Ascii.eqb c q) && quotable q s'
  end.

(** An identifier: a letter or underscore, then letters, digits, underscores and dashes; not one
    of the fixed texts. *)
Definition ident_ok {T} (lx : lexicon T) (x : string) : bool :=
  match x with "" => false | String c x' => is_id_start c && all_chars is_id_char x' end &&
  negb (existsb (fun p => String.eqb (fst p) x) (lx_fixed lx)).

(** A text that spells a token. *)
Inductive spells {T} (lx : lexicon T) : T -> string -> Prop :=
| sp_fixed u t : In (u, t) (lx_fixed lx) -> spells lx t u
| sp_str q s : q = c_dq \/ q = c_sq -> quotable q s = true ->
    spells lx (lx_str lx s) (String q (s ++ String q ""))
| sp_ident f x : lx_ident lx = Some f -> ident_ok lx x = true -> spells lx (f x) x
| sp_int d : d <> "" -> all_chars is_digit d = true -> (digits d 0 <= INT64_MAX)%Z ->
    spells lx (lx_int lx (digits d 0)) d
| sp_flt d e : d <> "" -> all_chars is_digit d = true -> all_chars is_digit e = true ->
    spells lx (lx_flt lx (dec_flt (digits (d ++ e) 0) (String.length e))) (d ++ String "." e).

(** The text u is not read together with what follows: no fixed text of a rule is a longer
    prefix of u ++ v, and the first character of v does not continue an identifier or number. *)
Definition apart {T} (lx : lexicon T) (u v : string) : bool :=
  forallb (fun p => (String.length (fst p) <=? String.length u)%nat || negb (prefix (fst p) (u ++ v)))
          (lx_fixed lx) &&
  match u, v with
  | String c _, String d _ =>
      if is_id_start c then negb (is_id_char d)
      else if is_digit c then
        negb (is_digit d) && (negb (all_chars is_digit u) || negb (Ascii.eqb d "."))
      else true
  | _, _ => true
  end.

(** A text made of spelled tokens with blanks around them, followed by z. *)
Inductive text_then {T} (lx : lexicon T) (z : string) : list T -> string -> Prop :=
| tx_end w : all_chars is_space w = true -> text_then lx z [] (w ++ z)
| tx_tok w t u ts v : all_chars is_space w = true -> spells lx t u -> apart lx u v = true ->
    text_then lx z ts v -> text_then lx z (t :: ts) (w ++ u ++ v).
(** A text made of spelled tokens with blanks around them. *)
Definition text_of {T} (lx : lexicon T) (ts : list T) (s : string) : Prop := text_then lx "" ts s.

(** Characters no rule but the last starts with. *)
Definition foreign {T} (lx : lexicon T) (c : ascii) : bool :=
  negb (is_space c || (match lx_ident lx with Some _ => is_id_start c | None => false end) ||
        is_digit c || Ascii.eqb c c_dq || Ascii.eqb c c_sq ||
        existsb (fun p => prefix (String c "") (fst p)) (lx_fixed lx)).
