(** Model of Parser::expandLet (src/eval_parser.cpp:1917-2002). *)
From Verif Require Import Base KindModel SortModel TermModel SimpModel OpModel.

Section LetX.
Context (c : cfg).
(** resultMap together with hasChangedMap: both are written for the same nodes *)
Definition xmemo := list (term * (term * bool)).
Fixpoint xfind (t : term) (V : xmemo) : option (term * bool) :=
  match V with [] => None | (a, r) :: V' => if teq t a then Some r else xfind t V' end.
(** 1949-1964: the results of the children, or the first child without one *)
Fixpoint scan_ch (V : xmemo) (ch : list term) : list (term * bool) + term :=
  match ch with
  | [] => inl []
  | x :: l => match xfind x V with
              | Some r => match scan_ch V l with inl rs => inl (r :: rs) | inr y => inr y end
              | None => inr x
              end
  end.
(** 1966-1988: the result of a node from its children's; resultMap[getChild(0)] of a let variable
    without children reads outside the vector *)
Definition xbuild (t : term) (rs : list (term * bool)) : res (term * bool) :=
  if isk NT_LET_BIND_VAR t then match rs with r :: _ => Ok (fst r, true) | [] => UB end
  else if existsb snd rs then u <- mkOper c (t_sort t) (t_kind t) (map fst rs) ;; Ok (u, true)
  else Ok (t, false).
(** 1933-1994: the loop; the stack is a list, top first *)
Fixpoint let_loop (fuel : nat) (stack : list term) (V : xmemo) : res xmemo :=
  match fuel with
  | O => NoFuel
  | S f =>
      match stack with
      | [] => Ok V
      | t :: rest =>
          match xfind t V with
          | Some _ => let_loop f rest V
          | None => match scan_ch V (t_ch t) with
                    | inr x => let_loop f (x :: t :: rest) V
                    | inl rs => r <- xbuild t rs ;; let_loop f rest ((t, r) :: V)
                    end
          end
      end
  end.
Definition let_run (body : term) : res term :=
  V <- let_loop (S (2 * tsize body)) [body] [] ;;
  match xfind body V with Some r => Ok (fst r) | None => UB end.
(** 1917-1930, 1996-2002.  [keep]: the option parsing_preserve_let.  NT_LET is never built
    by the library. *)
Definition expandLet (keep : bool) (t : term) : res term :=
  if keep && (isk NT_LET t || isk NT_LET_CHAIN t) then
    body <- (if isk NT_LET t then child0 t
             else condAssert (c_dbg c) (2 <=? length (t_ch t))%nat ;;;
                  match rev (t_ch t) with b :: _ => Ok b | [] => UB end) ;;
    let_run body
  else Ok t.
End LetX.
