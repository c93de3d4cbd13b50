(** The stack-based post-order traversals of src/base_parser.cpp, and the recursion they
    implement. *)
From Verif Require Import Base KindModel SortModel TermModel OpModel SimpModel ConvModel.

Section Post.
(** [skip]: a node already in the table is passed over; [leaf]: the result of a node that is
    not descended into; [drop]: the first child is left out; [build]: the result of a node
    from the results of its children. *)
Context (skip : bool) (leaf : term -> option (res term)) (drop : term -> bool) (build : term -> list term -> res term).

Definition kids (t : term) : list term := if drop t then tl (t_ch t) else t_ch t.
Definition known (V : memo) (t : term) : bool := match mfind t V with Some _ => true | None => false end.
(** table[child] of a child that is not there is a null pointer *)
Fixpoint lookups (V : memo) (l : list term) : res (list term) :=
  match l with
  | [] => Ok []
  | x :: l' => match mfind x V with Some u => us <- lookups V l' ;; Ok (u :: us) | None => UB end
  end.
(** the loop of substitute (base_parser.cpp:2099-2163, [skip] = true) and of
    applyFunPostOrder (1925-1996, [skip] = false); the stack is a list, top first *)
Fixpoint post_loop (fuel : nat) (todo : list (term * bool)) (V : memo) : res memo :=
  match fuel with
  | O => NoFuel
  | S f =>
      match todo with
      | [] => Ok V
      | (t, done) :: rest =>
          if skip && known V t then post_loop f rest V
          else if done then
            us <- lookups V (kids t) ;; u <- build t us ;; post_loop f rest ((t, u) :: V)
          else
            match leaf t with
            | Some r => u <- r ;; post_loop f rest ((t, u) :: V)
            | None =>
                post_loop f (map (fun x => (x, false)) (filter (fun x => negb (skip && known V x)) (kids t))
                             ++ (t, true) :: rest) V
            end
      end
  end.
Definition post_run (t : term) : res term :=
  V <- post_loop (S (2 * tsize t)) [(t, false)] [] ;;
  match mfind t V with Some u => Ok u | None => UB end.

(** the recursion *)
Definition mapR (f : term -> res term) : list term -> res (list term) :=
  fix go (l : list term) : res (list term) :=
    match l with [] => Ok [] | x :: l' => u <- f x ;; us <- go l' ;; Ok (u :: us) end.
Fixpoint post (t : term) : res term :=
  match leaf t with
  | Some r => r
  | None =>
      match t with
      | T k s n ch =>
          us <- (if drop (T k s n ch) then match ch with [] => Ok [] | _ :: l => mapR post l end else mapR post ch) ;;
          build (T k s n ch) us
      end
  end.
End Post.
