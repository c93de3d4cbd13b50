(** C31: lexing.  [read_text dbg file rescan t] is the list of tokens taken from text [t] the
    way the parser takes them: parentheses by parseLpar / parseRpar, everything else by
    getSymbol; [dbg] is the build mode, [file] tells parseSmtlib2File from parseStr,
    [rescan] tells operator arguments from commands, sorts and binders (LexModel.v).
    [lexes] (LexSpec.v) is the lexical structure of SMT-LIB, [raw] a token's text. *)
From Verif Require Import Base LexModel LexSpec LexProofs.

(** Every text: reading ends without undefined behaviour (every loop is bounded by the
    length of the text), and what is returned are consecutive pieces of the
    input, in order, between which only white space and comments are left out. *)
Theorem C31_terminates : forall dbg file rescan t,
  read_text dbg file rescan t <> NoFuel /\ read_text dbg file rescan t <> UB.
Proof. exact (fun dbg file rs t => conj (proj2 (read_text_calm dbg file rs t)) (proj1 (read_text_calm dbg file rs t))). Qed.
Print Assumptions C31_terminates.
Theorem C31_tokens_in_order : forall dbg file rescan t l,
  read_text dbg file rescan t = Ok l -> gaps t l.
Proof. exact read_text_spelled. Qed.
Print Assumptions C31_tokens_in_order.
(** one call of getSymbol, from any state *)
Theorem C31_symbol_in_order : forall dbg file s k s', getSymbol dbg file s = Ok (k, s') ->
  k <> [] /\ exists g, txt s = k ++ g ++ txt s' /\ blank_text g.
Proof. exact getSymbol_piece. Qed.
Print Assumptions C31_symbol_in_order.

(** the specification gives a text at most one token sequence *)
Theorem C31_spec_deterministic : forall t ks ks',
  lexes standard t ks -> lexes standard t ks' -> ks = ks'.
Proof. exact (fun t ks ks' => lexes_unique standard standard ks t ks'). Qed.
Print Assumptions C31_spec_deterministic.

(** Texts in which every bare word is followed by white space, a parenthesis or the end,
    and none starts like a number in scientific notation, yield exactly their SMT-LIB
    tokens; a script file must end in a closing parenthesis. *)
Theorem C31_smtlib_tokens_partial : forall dbg file t ks,
  lexes plain_word t ks -> (file = true -> last ks TR = TR) ->
  read_text dbg file false t = Ok (map raw ks).
Proof. exact read_text_ok. Qed.
Print Assumptions C31_smtlib_tokens_partial.
(** where the position is rescanned before every token, comments, strings and quoted
    symbols may follow a word directly *)
Theorem C31_rescanned_tokens_partial : forall dbg file t ks,
  lexes no_sci t ks -> (file = true -> last ks TR = TR) ->
  read_text dbg file true t = Ok (map raw ks).
Proof. exact read_text_rescan. Qed.
Print Assumptions C31_rescanned_tokens_partial.
(** such texts are SMT-LIB texts *)
Theorem C31_plain_is_standard : forall t ks, lexes plain_word t ks -> lexes standard t ks.
Proof. exact (fun t ks => lexes_weaken plain_word standard t ks (fun _ _ _ => Logic.I)). Qed.
Print Assumptions C31_plain_is_standard.

(** skipToRpar, in front of complete s-expressions and a closing parenthesis, stops at that
    parenthesis, whatever comments, quoted symbols and strings contain *)
Theorem C31_skip_to_rpar : forall t a ks, lexes standard t (a ++ TR :: ks) -> balanced a ->
  forall m, exists t', skipToRpar (Lx t m) = Lx (")"%char :: t') SM_COMMON /\ lexes standard t' ks.
Proof.
  exact (fun t a ks H Ha m => skip_ok standard t _ H 0%nat ks (skip_balanced a Ha ks)).
Qed.
Print Assumptions C31_skip_to_rpar.

(** ** what fails *)
Ltac lx := repeat first
  [ apply lx_nil
  | apply (lx_l standard) | apply (lx_r standard)
  | apply (lx_ws standard); [unfold wsC; cbn; tauto|] ].
Ltac nd := repeat constructor; unfold delimC, wsC; cbn; intuition discriminate.

(** a comment directly after a word is read as tokens (no rescan: commands, sorts, binders) *)
Theorem C31_comment_refuted : exists t ks, lexes standard t ks /\
  read_text false false false t <> Ok (map raw ks) /\
  read_text false false false t = Ok [L "("; L "f"; L "x"; L ";c"; L ")"].
Proof.
  exists (L "(f x;c" ++ [ascii_of_nat 10] ++ L ")"), [TL; TWord (L "f"); TWord (L "x"); TR].
  split; [|split; [vm_compute; discriminate|vm_compute; reflexivity]].
  cbn -[ascii_of_nat]. apply lx_l.
  apply (lx_word standard ["f"%char]); [discriminate|nd| |exact Logic.I|].
  { left. unfold wsC. cbn. tauto. }
  apply lx_ws; [unfold wsC; cbn; tauto|].
  apply (lx_word standard ["x"%char]); [discriminate|nd| |exact Logic.I|].
  { right. left. cbn. tauto. }
  apply (lx_comment standard ["c"%char]); [|unfold nlC; cbn; tauto|].
  { repeat constructor; [unfold nlC; cbn; intuition discriminate|discriminate]. }
  apply lx_r, lx_nil.
Qed.
Print Assumptions C31_comment_refuted.

(** after a word that starts like scientific notation, blanks and the closing
    parenthesis are swallowed; "-e" is enough *)
Theorem C31_scientific_refuted : exists t ks, lexes standard t ks /\
  forall rescan, read_text false false rescan t <> Ok (map raw ks) /\
  read_text false false rescan t = Ok [L "("; L "+"; L "-exp x)"].
Proof.
  exists (L "(+ -exp x)"), [TL; TWord (L "+"); TWord (L "-exp"); TWord (L "x"); TR].
  split; [|intros [|]; split; [vm_compute; discriminate|vm_compute; reflexivity|vm_compute; discriminate|vm_compute; reflexivity]].
  cbn. apply lx_l.
  apply (lx_word standard (L "+")); [discriminate|nd| |exact Logic.I|].
  { left. unfold wsC. cbn. tauto. }
  apply lx_ws; [unfold wsC; cbn; tauto|].
  apply (lx_word standard (L "-exp")); [discriminate|nd| |exact Logic.I|].
  { left. unfold wsC. cbn. tauto. }
  apply lx_ws; [unfold wsC; cbn; tauto|].
  apply (lx_word standard (L "x")); [discriminate|nd| |exact Logic.I|].
  { right. left. cbn. tauto. }
  apply lx_r, lx_nil.
Qed.
Print Assumptions C31_scientific_refuted.

(** a string or quoted symbol directly after a word is cut at its blanks *)
Theorem C31_quoted_refuted : exists t ks, lexes standard t ks /\
  read_text false false false t <> Ok (map raw ks) /\
  read_text false false false t = Ok [L "a"; L "|b"; L "c"; L "|"].
Proof.
  exists (L "a|b c|"), [TWord (L "a"); TQuoted (L "b c")].
  split; [|split; [vm_compute; discriminate|vm_compute; reflexivity]].
  cbn. apply (lx_word standard (L "a")); [discriminate|nd| |exact Logic.I|].
  { right. left. cbn. tauto. }
  apply (lx_quoted standard (L "b c") []); [|constructor].
  repeat constructor; discriminate.
Qed.
Print Assumptions C31_quoted_refuted.

(** the hypotheses are met: a script with comment, string, quoted symbol *)
Definition ex_text : str :=
  L "(assert (= |a b| " ++ [quoteC] ++ L "x;" ++ [quoteC; quoteC] ++ L ")" ++ [quoteC] ++ L ")) ; done".
Definition ex_toks : list token :=
  [TL; TWord (L "assert"); TL; TWord (L "="); TQuoted (L "a b");
   TString (L "x;" ++ [quoteC; quoteC] ++ L ")"); TR; TR].
Example C31_ex : lexes plain_word ex_text ex_toks /\ last ex_toks TR = TR /\
  read_text true true false ex_text = Ok (map raw ex_toks).
Proof.
  assert (Hpw : forall w t, starts (fun c => wsC c \/ c = "("%char \/ c = ")"%char) t ->
    forallb (fun c => negb (aeq c "E"%char || aeq c "e"%char)) (tl w) = true \/
      (existsb (fun c => aeq c "s"%char) (firstn 2 w) = true /\
       existsb (fun c => aeq c "e"%char || aeq c "E"%char) (firstn 3 w) = false) -> plain_word w t).
  { intros w t Hs Hw. split; [exact Hs|]. intros m e r -> He. destruct m as [|c m]; [now left|].
    right. destruct Hw as [Hw|[Hw Hx]].
    - exfalso. cbn in Hw. rewrite forallb_app in Hw. apply andb_true_iff in Hw. destruct Hw as [_ Hw].
      cbn in Hw. apply andb_true_iff in Hw. destruct Hw as [Hw _].
      destruct He as [-> | ->]; discriminate.
    - destruct m as [|c2 m].
      + cbn in Hx. destruct He as [-> | ->]; cbn in Hx; now rewrite ?orb_true_r in Hx.
      + apply existsb_exists in Hw. destruct Hw as (x & Hx1 & Hx2). apply aeq_true in Hx2. subst x.
        exists "s"%char. split.
        * cbn in Hx1. cbn. intuition.
        * unfold realC. cbn. intuition (try discriminate; lia). }
  split; [|split; [reflexivity|vm_compute; reflexivity]].
  unfold ex_text, ex_toks. cbn.
  apply lx_l.
  apply (lx_word plain_word (L "assert")); [discriminate|nd| | |].
  { left. unfold wsC. cbn. tauto. }
  { apply Hpw; [left; unfold wsC; cbn; tauto|right; split; reflexivity]. }
  apply lx_ws; [unfold wsC; cbn; tauto|]. apply lx_l.
  apply (lx_word plain_word (L "=")); [discriminate|nd| | |].
  { left. unfold wsC. cbn. tauto. }
  { apply Hpw; [left; unfold wsC; cbn; tauto|left; reflexivity]. }
  apply lx_ws; [unfold wsC; cbn; tauto|].
  apply (lx_quoted plain_word (L "a b")); [repeat constructor; discriminate|].
  apply lx_ws; [unfold wsC; cbn; tauto|].
  apply (lx_string plain_word (L "x;" ++ [quoteC; quoteC] ++ L ")")).
  { cbn. apply sb_chr; [discriminate..|]. apply sb_chr; [discriminate..|].
    apply sb_quo. apply sb_chr; [discriminate..|]. constructor. }
  { cbn. discriminate. }
  apply lx_r, lx_r. apply lx_ws; [unfold wsC; cbn; tauto|].
  apply (lx_comment_end plain_word). repeat constructor; try (unfold nlC; cbn; intuition discriminate); discriminate.
Qed.
