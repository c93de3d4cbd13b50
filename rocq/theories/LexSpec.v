(** Specification of the lexical structure of SMT-LIB 2 text, independent of the
    scanner: which token sequences a text spells. *)
From Verif Require Import Base.

Definition wsC (c : ascii) : Prop := In (code c) [9; 10; 11; 12; 13; 32]%nat.
Definition nlC (c : ascii) : Prop := In (code c) [10; 11; 12; 13]%nat.
Definition quoteC : ascii := """"%char.
(** characters that never belong to a bare word *)
Definition delimC (c : ascii) : Prop :=
  wsC c \/ In c ["("%char; ")"%char; ";"%char; "|"%char; quoteC] \/ c = nul.

Inductive token :=
| TL | TR
| TWord (w : str)     (* simple symbol, numeral, keyword *)
| TQuoted (b : str)   (* |b| *)
| TString (b : str).  (* "b", quotes inside b doubled *)

(** the source text of a token *)
Definition raw (k : token) : str :=
  match k with
  | TL => ["("%char] | TR => [")"%char]
  | TWord w => w
  | TQuoted b => "|"%char :: b ++ ["|"%char]
  | TString b => quoteC :: b ++ [quoteC]
  end.

(** bodies of string literals: every quote is doubled *)
Inductive str_body : str -> Prop :=
| sb_nil : str_body []
| sb_chr : forall c b, c <> quoteC -> c <> nul -> str_body b -> str_body (c :: b)
| sb_quo : forall b, str_body b -> str_body (quoteC :: quoteC :: b).

(** the first character of [t], if any, satisfies [P] *)
Definition starts (P : ascii -> Prop) (t : str) : Prop :=
  match t with [] => True | c :: _ => P c end.

(** [lexes ok t ks]: text [t] spells the tokens [ks].  A bare word is a maximal run
    of non-delimiters; [ok w t] is a side condition on a word and the text that
    follows it. *)
Inductive lexes (ok : str -> str -> Prop) : str -> list token -> Prop :=
| lx_nil : lexes ok [] []
| lx_ws : forall c t ks, wsC c -> lexes ok t ks -> lexes ok (c :: t) ks
| lx_comment : forall b c t ks, Forall (fun x => ~ nlC x /\ x <> nul) b -> nlC c ->
    lexes ok t ks -> lexes ok (";"%char :: b ++ c :: t) ks
| lx_comment_end : forall b, Forall (fun x => ~ nlC x /\ x <> nul) b ->
    lexes ok (";"%char :: b) []
| lx_l : forall t ks, lexes ok t ks -> lexes ok ("("%char :: t) (TL :: ks)
| lx_r : forall t ks, lexes ok t ks -> lexes ok (")"%char :: t) (TR :: ks)
| lx_quoted : forall b t ks, Forall (fun x => x <> "|"%char /\ x <> nul) b ->
    lexes ok t ks -> lexes ok ("|"%char :: b ++ "|"%char :: t) (TQuoted b :: ks)
| lx_string : forall b t ks, str_body b -> starts (fun c => c <> quoteC) t ->
    lexes ok t ks -> lexes ok (quoteC :: b ++ quoteC :: t) (TString b :: ks)
| lx_word : forall w t ks, w <> [] -> Forall (fun x => ~ delimC x) w -> starts delimC t ->
    ok w t -> lexes ok t ks -> lexes ok (w ++ t) (TWord w :: ks).

(** SMT-LIB itself puts no further condition on words *)
Definition standard (w t : str) : Prop := True.

Definition eC (c : ascii) : Prop := c = "E"%char \/ c = "e"%char.
Definition realC (c : ascii) : Prop := (48 <= code c <= 57)%nat \/ In c ["."%char; "-"%char; "+"%char].

(** the word does not start like a number in scientific notation *)
Definition no_sci (w t : str) : Prop :=
  forall m e r, w = m ++ e :: r -> eC e -> m = [] \/ exists c, In c m /\ ~ realC c.
(** ... and is followed by white space, a parenthesis or the end of the text *)
Definition plain_word (w t : str) : Prop :=
  starts (fun c => wsC c \/ c = "("%char \/ c = ")"%char) t /\ no_sci w t.

(** parentheses balanced: [balanced ks] is a sequence of complete s-expressions *)
Inductive balanced : list token -> Prop :=
| bal_nil : balanced []
| bal_par : forall a b, balanced a -> balanced b -> balanced (TL :: a ++ TR :: b)
| bal_tok : forall k b, k <> TL -> k <> TR -> balanced b -> balanced (k :: b).

(** white space and comments *)
Inductive blank_text : str -> Prop :=
| bt_nil : blank_text []
| bt_ws : forall c t, wsC c -> blank_text t -> blank_text (c :: t)
| bt_comment : forall b, Forall (fun x => ~ nlC x /\ x <> nul) b -> blank_text (";"%char :: b)
| bt_line : forall b c t, Forall (fun x => ~ nlC x /\ x <> nul) b -> nlC c -> blank_text t ->
    blank_text (";"%char :: b ++ c :: t).

(** [gaps t l]: the strings [l] are non-empty consecutive pieces of [t], separated
    only by white space and comments, up to the end of [t] or its first NUL byte *)
Inductive gaps : str -> list str -> Prop :=
| gp_end : forall t, t = [] \/ (exists r, t = nul :: r) -> gaps t []
| gp_skip : forall g t l, blank_text g -> gaps t l -> gaps (g ++ t) l
| gp_tok : forall k t l, k <> [] -> gaps t l -> gaps (k ++ t) (k :: l).
