(** Model of NodeVisitor (src/visitor.cpp), of the rewriter (src/rewriter.cpp,
    include/rewriter.h, include/op_dispatcher.h) and of Model (src/model.cpp). *)
From Verif Require Import Base KindModel SortModel TermModel OpModel ParseModel.

(** ** NodeVisitor::walk (src/visitor.cpp:12-42).  The result is the list of nodes visit() was
    called on and visited_ afterwards; the stack is a list, top first.  Null children are not part of
    terms. *)
Definition seen (t : term) (V : list term) : bool := existsb (teq t) V.
Fixpoint walk_loop (fuel : nat) (stack V : list term) : res (list term * list term) :=
  match fuel with
  | O => NoFuel
  | S f =>
      match stack with
      | [] => Ok ([], V)
      | n :: rest =>
          if seen n V then walk_loop f rest V
          else r <- walk_loop f (t_ch n ++ rest) (n :: V) ;; Ok (n :: fst r, snd r)
      end
  end.
Definition walk (root : term) (V : list term) : res (list term * list term) := walk_loop (S (tsize root)) [root] V.
(** several walks of one visitor object *)
Fixpoint walks (roots : list term) (V : list term) : res (list (list term) * list term) :=
  match roots with
  | [] => Ok ([], V)
  | t :: l => r <- walk t V ;; rs <- walks l (snd r) ;; Ok (fst r :: fst rs, snd rs)
  end.

(** ** the rewriter *)
(** op_dispatcher.h:57-106: a table of handlers and a fallback; a null result when there is
    neither (release build; [dbg]: assertion failure) *)
Record rules := Rules { ru_on : kind -> option (term -> res term); ru_else : option (term -> res term) }.
Definition dispatch (dbg : bool) (r : rules) (t : term) : res (option term) :=
  match ru_on r (t_kind t), ru_else r with
  | Some h, _ | None, Some h => u <- h t ;; Ok (Some u)
  | None, None => condAssert dbg false ;;; Ok None
  end.
(** rewriter.cpp:6-25 rebuildLike; a null child differs from every child, and
    createNode reads it *)
Fixpoint all_some (l : list (option term)) : option (list term) :=
  match l with
  | [] => Some []
  | Some t :: l' => option_map (cons t) (all_some l')
  | None :: _ => None
  end.
Definition rebuildLike (old : term) (newKids : list term) : term :=
  match old with
  | T k s n ch => if (length newKids =? length ch)%nat then T k s n newKids else old
  end.
Definition rebuildOpt (old : term) (newKids : list (option term)) : res term :=
  match all_some newKids with Some l => Ok (rebuildLike old l) | None => UB end.
(** 31-49 rewriteOnce with memo_ *)
Definition rmemo := list (term * option term).
Fixpoint rfind (t : term) (M : rmemo) : option (option term) :=
  match M with [] => None | (a, u) :: M' => if teq a t then Some u else rfind t M' end.
Definition once_list (f : term -> rmemo -> res (option term * rmemo)) : list term -> rmemo -> res (list (option term) * rmemo) :=
  fix go (l : list term) (M : rmemo) : res (list (option term) * rmemo) :=
    match l with
    | [] => Ok ([], M)
    | x :: l' => a <- f x M ;; b <- go l' (snd a) ;; Ok (fst a :: fst b, snd b)
    end.
Fixpoint rewriteOnce (dbg : bool) (r : rules) (t : term) (M : rmemo) {struct t} : res (option term * rmemo) :=
  match rfind t M with
  | Some u => Ok (u, M)
  | None =>
      match t with
      | T _ _ _ ch =>
          q <- once_list (rewriteOnce dbg r) ch M ;;
          n <- rebuildOpt t (fst q) ;; u <- dispatch dbg r n ;; Ok (u, (t, u) :: snd q)
      end
  end.
(** 51-65 rewrite with enable_fixpoint; a null result ends the loop in the next round *)
Fixpoint rounds (dbg : bool) (r : rules) (n : nat) (t : option term) : res (option term) :=
  match n with
  | O => Ok t
  | S m => match t with
           | None => Ok None
           | Some c => q <- rewriteOnce dbg r c [] ;;
                       if match fst q with Some u => teq u c | None => false end then Ok (fst q)
                       else rounds dbg r m (fst q)
           end
  end.
Definition rewrite (dbg : bool) (r : rules) (fixpoint : bool) (max : nat) (t : term) : res (option term) :=
  if fixpoint then rounds dbg r max (Some t) else q <- rewriteOnce dbg r t [] ;; Ok (fst q).

(** 68-84 *)
Definition ruleNOT (t : term) : term :=
  match t_ch t with
  | [] => t
  | a :: _ => if isk NT_NOT a && (1 <=? length (t_ch a))%nat then hd a (t_ch a)
              else if isTrue a then FALSE else if isFalse a then TRUE else rebuildLike t [a]
  end.
(** 86-109 *)
Definition ruleAND (t : term) : term :=
  match t_ch t with
  | [] | [_] => t
  | [l; r] => if isFalse l || isFalse r then FALSE
              else if isTrue l then r else if isTrue r then l else if teq l r then l
              else rebuildLike t [l; r]
  | ch => rebuildLike t ch
  end.
(** 111-116 *)
Definition rw_isZero (t : term) : bool := isConst t && (seq_str (t_name t) (L "0") || seq_str (t_name t) (L "0.0")).
(** 118-137 *)
Definition ruleADD (t : term) : term :=
  match t_ch t with
  | [] | [_] => t
  | [l; r] => if rw_isZero l then r else if rw_isZero r then l else rebuildLike t [l; r]
  | ch => rebuildLike t ch
  end.
(** 139-147 *)
Definition ruleFallback (t : term) : term := rebuildLike t (t_ch t).
(** 149-155 installDefaultRewriteRules *)
Definition default_rules : rules :=
  Rules (fun k => match k with
                  | NT_NOT => Some (fun t => Ok (ruleNOT t))
                  | NT_AND => Some (fun t => Ok (ruleAND t))
                  | NT_ADD => Some (fun t => Ok (ruleADD t))
                  | _ => None
                  end) (Some (fun t => Ok (ruleFallback t))).
(** installing nothing: Rewriter's constructor leaves the table empty *)
Definition no_rules : rules := Rules (fun _ => None) None.

(** ** Model (src/model.cpp) *)
Record model := Model { m_idx : smap nat; m_vars : list term; m_vals : list term }.
(** 12-14 *)
Definition newModel : model := Model [] [] [].
Fixpoint set_nth (i : nat) (v : term) (l : list term) : list term :=
  match l, i with
  | [], _ => []
  | _ :: l', O => v :: l'
  | x :: l', S j => x :: set_nth j v l'
  end.
(** vector::operator[] *)
Definition vec_set (i : nat) (v : term) (l : list term) : res (list term) :=
  if (i <? length l)%nat then Ok (set_nth i v l) else UB.
Definition vec_get (i : nat) (l : list term) : res term :=
  match nth_error l i with Some t => Ok t | None => UB end.
(** 26-35 add of a node *)
Definition m_add (x v : term) (m : model) : res model :=
  match mget (t_name x) (m_idx m) with
  | Some i => vs <- vec_set i v (m_vals m) ;; Ok (Model (m_idx m) (m_vars m) vs)
  | None => Ok (Model (mins (t_name x) (length (m_vars m)) (m_idx m)) (m_vars m ++ [x]) (m_vals m ++ [v]))
  end.
(** 37-40 add of a name: without the assertion, an unknown name is entered with index 0 *)
Definition m_addName (dbg : bool) (n : str) (v : term) (m : model) : res model :=
  let known := match mget n (m_idx m) with Some _ => true | None => false end in
  condAssert dbg known ;;;
  let i := match mget n (m_idx m) with Some i => i | None => O end in
  vs <- vec_set i v (m_vals m) ;; Ok (Model (mins n O (m_idx m)) (m_vars m) vs).
(** 42-54 *)
Definition m_getName (n : str) (m : model) : res term :=
  match mget n (m_idx m) with Some i => vec_get i (m_vals m) | None => Ok UNKNOWN end.
Definition m_get (x : term) (m : model) : res term := m_getName (t_name x) m.
(** 56-63 *)
Definition m_addVar (x : term) (m : model) : model :=
  match mget (t_name x) (m_idx m) with
  | Some _ => m
  | None => Model (mins (t_name x) (length (m_vars m)) (m_idx m)) (m_vars m ++ [x]) (m_vals m ++ [UNKNOWN])
  end.
(** 65-85; both vectors have the same length (ModelProofs) *)
Definition m_isFull (m : model) : bool := negb (existsb isUnknown (m_vals m)).
Definition m_isEmpty (m : model) : bool := forallb isUnknown (m_vals m).
(** 87-98 *)
Definition m_clear (m : model) : model := newModel.
Definition m_clearValues (m : model) : model := Model (m_idx m) (m_vars m) (map (fun _ => UNKNOWN) (m_vars m)).
(** 100-118 *)
Definition m_size (m : model) : nat := length (m_vars m).
Definition m_getPairs (m : model) : list (str * term) := combine (map t_name (m_vars m)) (m_vals m).

(** several calls of rewriteOnce on one Rewriter: memo_ stays (rewriter.cpp:31-49); the rules
    may be changed between the calls (include/rewriter.h) *)
Fixpoint calls (dbg : bool) (l : list (rules * term)) (M : rmemo) : res (list (option term)) :=
  match l with
  | [] => Ok []
  | (r, t) :: l' => q <- rewriteOnce dbg r t M ;; us <- calls dbg l' (snd q) ;; Ok (fst q :: us)
  end.
