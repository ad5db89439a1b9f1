(** What a program is entitled to expect of Tokenizer variables that it assigns
    to one another: specification for C84.  Nothing here mentions buffers or
    arrays; a Tokenizer is a value, and an assignment copies it. *)
From Verif Require Import Bytes ParseModel StringModel TokenModel StackModel.

(** one variable changed *)
Definition upd {A} (f : nat -> A) (x : nat) (v : A) : nat -> A := fun y => if Nat.eqb y x then v else f y.
(** what is seen of a Tokenizer *)
Definition v_view (t : tokenizer) : tview := TView (t_delim t) (t_value t) (t_err t) (t_depth t) (t_index t) (t_IsKey t).
(** The run of a program if Tokenizers were values. *)
Fixpoint v_run (ops : list top) (v : nat -> tokenizer) : option (list (bool * tview)) :=
  match ops with
  | [] => Some []
  | TReset x b :: ops' =>
      option_map (cons (true, v_view (new_tokenizer b))) (v_run ops' (upd v x (new_tokenizer b)))
  | TCopy x y :: ops' => option_map (cons (true, v_view (v x))) (v_run ops' (upd v y (v x)))
  | TNext x :: ops' =>
      match tok_next (v x) with
      | None => None
      | Some (t, r) => option_map (cons (r, v_view t)) (v_run ops' (upd v x t))
      end
  end.
(** variables that were never assigned *)
Definition no_tok : nat -> tokenizer := fun _ => new_tokenizer [].

(** How a program may use a variable.

    [Live opened here]: as it likes.  [opened]: since it was last Reset, Next
    has returned an opening bracket.  [here]: since then it was never inside
    more than 8 brackets, nor assigned from another variable that was opened.

    [Saved x]: it is a copy of x, to be assigned back to x, or Reset.

    [Dead]: not at all: the state has moved to another variable. *)
Inductive use := Live (opened here : bool) | Saved (x : nat) | Dead.
Definition no_use : nat -> use := fun _ => Live false true.
Definition opening (t : tokenizer) : bool := (t_delim t =? 123) || (t_delim t =? 91).
(** The programs that keep to this. *)
Inductive disciplined : (nat -> tokenizer) -> (nat -> use) -> list top -> Prop :=
| Di_end v u : disciplined v u []
| Di_reset v u x b ops : u x <> Dead ->
    disciplined (upd v x (new_tokenizer b)) (upd u x (Live false true)) ops -> disciplined v u (TReset x b :: ops)
| Di_next v u x o h t r ops : u x = Live o h -> tok_next (v x) = Some (t, r) ->
    disciplined (upd v x t) (upd u x (Live (o || opening t) (h && Nat.leb (length (t_stack t)) 8))) ops ->
    disciplined v u (TNext x :: ops)
| Di_panic v u x o h ops : u x = Live o h -> tok_next (v x) = None -> disciplined v u (TNext x :: ops)
    (* a copy of a Tokenizer that has read no bracket is independent of it *)
| Di_fresh v u x y h ops : x <> y -> u x = Live false h -> u y <> Dead ->
    disciplined (upd v y (v x)) (upd u y (Live false true)) ops -> disciplined v u (TCopy x y :: ops)
    (* any other copy takes the place of the original *)
| Di_move v u x y h ops : x <> y -> u x = Live true h -> u y <> Dead ->
    disciplined (upd v y (v x)) (upd (upd u x Dead) y (Live true false)) ops -> disciplined v u (TCopy x y :: ops)
    (* or is kept, for the original to go back to *)
| Di_save v u x y ops : x <> y -> u x = Live true true -> u y <> Dead ->
    disciplined (upd v y (v x)) (upd u y (Saved x)) ops -> disciplined v u (TCopy x y :: ops)
| Di_back v u x y ops : x <> y -> u x = Saved y -> u y <> Dead ->
    disciplined (upd v y (v x)) (upd u y (Live true true)) ops -> disciplined v u (TCopy x y :: ops)
| Di_again v u x y z ops : x <> y -> u x = Saved z -> z <> y -> u y <> Dead ->
    disciplined (upd v y (v x)) (upd u y (Saved z)) ops -> disciplined v u (TCopy x y :: ops).

(** the values after a run, and the results *)
Fixpoint v_go (ops : list top) (v : nat -> tokenizer) : option (list (bool * tview) * (nat -> tokenizer)) :=
  match ops with
  | [] => Some ([], v)
  | TReset x b :: ops' => option_map (fun p => ((true, v_view (new_tokenizer b)) :: fst p, snd p)) (v_go ops' (upd v x (new_tokenizer b)))
  | TCopy x y :: ops' => option_map (fun p => ((true, v_view (v x)) :: fst p, snd p)) (v_go ops' (upd v y (v x)))
  | TNext x :: ops' =>
      match tok_next (v x) with
      | None => None
      | Some (t, r) => option_map (fun p => ((r, v_view t) :: fst p, snd p)) (v_go ops' (upd v x t))
      end
  end.
(** no assignment between Tokenizers *)
Definition no_copy (o : top) : Prop := match o with TCopy _ _ => False | _ => True end.
(** only the Tokenizer x is used, and not copied *)
Definition only (x : nat) (o : top) : Prop := match o with TNext y => y = x | TReset y _ => y = x | TCopy _ _ => False end.
(** No opening bracket is returned at a Depth of 8 or more. *)
Definition shallow (w : tview) : Prop := w_delim w = 123 \/ w_delim w = 91 -> w_depth w < 8.
