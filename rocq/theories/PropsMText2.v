(** C61: names that start with a parenthesis (added after a wrong program survived the other theorems). *)
From Verif Require Import Base LexSpec LexProofs KindModel SortModel TermModel UtilModel SimpModel OpModel LexModel
  ParseModel ParseSpec ParseProofs ParseProofs2 ParseTerm ParseLits ApplyModel CommandModel CommandSpec CommandProofs CommandProofs2
  CommandTerm CommandMore TraverseModel TraverseSpec TraverseProofs3 MTextModel MTextSpec MTextProofs PropsParse OpExamples PropsCommand PropsTraverse PropsMText.
Open Scope Z_scope.
(** no zero byte; white space is followed by a character that is neither white space nor a parenthesis *)
Fixpoint spaced (t : str) : Prop :=
  match t with
  | [] => True
  | c :: r => c <> nul /\ (ws6 c = true -> match r with d :: _ => ws6 d = false /\ parc d = false | [] => False end) /\ spaced r
  end.
Lemma raw_spaced t w r : spaced t -> ws6 w = true -> parc (first (drop ws6 r)) = true -> raw_name (t ++ w :: r) = (t, w :: r).
Proof.
  intros S W P. induction t as [|c t IH].
  - cbn [app raw_name]. assert (aeq w nul = false) as -> by (apply aeq_false; intros ->; discriminate W). now rewrite W, P.
  - cbn [app raw_name]. destruct S as (N & H & S). apply aeq_false in N. rewrite N, (IH S). cbn [fst snd].
    destruct (ws6 c) eqn:C; [|reflexivity]. destruct t as [|d t]; [destruct (H eq_refl)|]. destruct (H eq_refl) as [D1 D2].
    cbn [app drop]. rewrite D1. cbn [first]. now rewrite D2.
Qed.
Lemma mname_spaced x p md d t w r : spaced (d :: t) -> ws6 d = false -> parc d = false -> ws6 w = true -> parc (first (drop ws6 r)) = true ->
  mname x (CS p (Lx ("("%char :: d :: t ++ w :: r) md)) = Ok ("|"%char :: "("%char :: d :: t ++ ["|"%char], CS p (scan (w :: r))).
Proof.
  intros S D P W R. unfold mname. change (atc lpar (CS p (Lx ("("%char :: d :: t ++ w :: r) md))) with true. cbn iota.
  cbn [sl txt tl drop]. rewrite D. cbn [first]. rewrite P.
  change ("("%char :: d :: t ++ w :: r) with (("("%char :: d :: t) ++ w :: r). rewrite raw_spaced; [reflexivity| |exact W|exact R].
  split; [discriminate|]. split; [discriminate|exact S].
Qed.
Lemma eloop_one {A} (f : cs -> A -> res (cs * A)) n s s' a a' : skip4 s = s -> atc lpar s = true -> f s a = Ok (s', a') -> atc lpar (skip4 s') = false ->
  eloop f (S (S n)) s a = Ok (skip4 s', a', true).
Proof. intros H1 H2 H3 H4. cbn [eloop]. rewrite H1, H2, H3. cbn [negb fst snd]. now rewrite H4. Qed.
Definition X61 : pcfg := xo B false (g_opt (q_g q61)).
Lemma R1 (n : str) fs : (s2 <- lparc (CS (q_p q61) (scan (L " () Int 4))"))) ;; ps <- many' (mparam X61) s2 ;; s3 <- rparc (snd ps) ;;
    t <- psort' X61 s3 ;;
    match fst ps with
    | [] => s4 <- to_end (snd t) ;; Ok (s4, fs)
    | _ => f <- mkFuncDec n (fst ps) (fst t) (snd t) ;;
           s4 <- to_end (snd f) ;; Ok (s4, if existsb (seq_str n) fs then fs else fs ++ [n])
    end) = Ok (CS (q_p q61) (Lx (L ")") SM_SYMBOL), fs).
Proof. vm_compute. reflexivity. Qed.
Definition R2 (n : str) : res (cs * model) :=
  s2 <- lparc (CS (q_p q61) (scan (L " () Int 4))"))) ;;
    let has := negb (atc rpar s2) in
    ps <- many' (mparam X61) s2 ;; s3 <- rparc (snd ps) ;;
    if has then s4 <- to_end s3 ;; Ok (s4, newModel)
    else
      t <- psort' X61 s3 ;;
      if false && match mget n (p_var (sp (snd t))) with Some _ => false | None => true end
      then s4 <- to_end (snd t) ;; Ok (s4, newModel)
      else
        let v := mkVar (fst t) n (snd t) in
        e <- pexpr' X61 (snd v) ;;
        m' <- (if isErr (fst e) then Ok newModel else m_add (fst v) (fst e) newModel) ;;
        s4 <- rparc (snd e) ;; Ok (s4, m').
Definition pairs2 (r : res (cs * model)) := match r with Ok (s, m) => Some (sl s, m_getPairs m) | _ => None end.
Lemma R2_ok v : exists m q', R2 ("|"%char :: v) = Ok (CS q' (Lx (L ")") SM_SYMBOL), m) /\ m_getPairs m = [("|"%char :: v, mkConstInt 4)].
Proof.
  assert (H : pairs2 (R2 ("|"%char :: v)) = Some (Lx (L ")") SM_SYMBOL, [("|"%char :: v, mkConstInt 4)])) by (vm_compute; reflexivity).
  destruct (R2 ("|"%char :: v)) as [[s m]| | | | |]; try discriminate H. cbn in H. exists m, (sp s). destruct s as [q l]. cbn [sl sp] in *. injection H as -> ->. split; reflexivity.
Qed.
(** A model of a solver may give a value to an application, as in (define-fun (f 1) () Int 4): the variable is named by the
    quoted text.  q61 is the parser after (declare-const x Int). *)
Theorem C61_parenthesised_name : forall d t, spaced (d :: t) -> ws6 d = false -> parc d = false ->
  got (parseModel B (L "((define-fun (" ++ (d :: t) ++ L " () Int 4))") false q61) = Some [(L "|(" ++ (d :: t) ++ L "|", mkConstInt 4)].
Proof.
  intros d t Sp D P.
  set (u := L "|(" ++ (d :: t) ++ L "|"). set (tx := L "((define-fun (" ++ (d :: t) ++ L " () Int 4))").
  set (x := X61). set (p := q_p q61).
  assert (M : forall md, mname x (CS p (Lx ("("%char :: d :: t ++ L " () Int 4))") md)) = Ok (u, CS p (scan (L " () Int 4))")))).
  { intros md. apply (mname_spaced x p md d t " "%char (L "() Int 4))")); auto. }
  set (ty := "("%char :: d :: t ++ L " () Int 4))") in *.
  assert (Etx : tx = L "((define-fun " ++ ty) by reflexivity.
  assert (H1 : mheader x (CS p (scan tx)) = Ok (CS p (scan (L "(define-fun " ++ ty)))).
  { rewrite Etx. reflexivity. }
  assert (K : forall q, q = p -> (s1 <- lparc (CS q (scan (L "(define-fun " ++ ty))) ;; sym x s1) = Ok (L "define-fun", CS q (Lx ty SM_SYMBOL))) by (intros q ->; reflexivity).
  assert (E1 : forall fs, entry1 x (CS p (scan (L "(define-fun " ++ ty))) fs = Ok (CS p (Lx (L ")") SM_SYMBOL), fs)).
  { intros fs. unfold entry1. specialize (K p eq_refl). destruct (lparc (CS p (scan (L "(define-fun " ++ ty)))) as [s1|?| | | |]; cbn [bind] in K |- *; try discriminate K.
    rewrite K. cbn [bind fst snd]. change (negb (seqs (L "define-fun") "define-fun")) with false. cbn iota. rewrite M. cbn [bind fst snd]. apply R1. }
  assert (E2 : entry2 x false (CS p (scan (L "(define-fun " ++ ty))) newModel = R2 u).
  { unfold entry2. specialize (K p eq_refl). destruct (lparc (CS p (scan (L "(define-fun " ++ ty)))) as [s1|?| | | |]; cbn [bind] in K |- *; try discriminate K.
    rewrite K. cbn [bind fst snd]. change (negb (seqs (L "define-fun") "define-fun")) with false. cbn iota. rewrite M. reflexivity. }
  destruct (R2_ok ("("%char :: d :: t ++ ["|"%char])) as (m & q' & F2 & Em). change ("|"%char :: "("%char :: d :: t ++ ["|"%char]) with u in F2, Em. rewrite F2 in E2.
  unfold parseModel. change tx with ("("%char :: L "(define-fun " ++ ty) at 1. cbn iota. fold X61. fold x p. rewrite H1.
  assert (Lt : exists n, Datatypes.S (length tx) = Datatypes.S (Datatypes.S n)) by (eexists; reflexivity). destruct Lt as (n & ->).
  set (s0 := CS p (scan (L "(define-fun " ++ ty))) in *.
  rewrite (eloop_one (entry1 x) n s0 _ (g_funs (q_g q61)) _ eq_refl eq_refl (E1 _) eq_refl). cbn [fst snd bind].
  set (s1 := CS (sp (skip4 _)) _). change s1 with s0.
  rewrite (eloop_one (entry2 x false) n s0 _ newModel _ eq_refl eq_refl E2 eq_refl).
  cbn [got fst snd bind]. fold u. now rewrite Em.
Qed.
Print Assumptions C61_parenthesised_name.
Example C61_parenthesised_name_ex : spaced (L "f 1)") /\ ws6 "f" = false /\ parc "f" = false /\
  got (parseModel B (L "((define-fun (f 1) () Int 4))") false q61) = Some [(L "|(f 1)|", mkConstInt 4)].
Proof. split; [cbn; repeat split; try discriminate|]. split; [reflexivity|]. split; [reflexivity|]. vm_compute. reflexivity. Qed.
