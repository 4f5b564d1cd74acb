(** What a vector should be: a list. *)
From Coq Require Import List ZArith Lia Bool Arith.
From Verif Require Import Base CvectorModel.
Import ListNotations.
Open Scope Z_scope.

(** one operation on a list; [None] when its precondition (non-empty, position
    inside) does not hold *)
Definition spec_step {A} (l : list A) (o : op A) : option (list A * obs A) :=
  match o with
  | Push x => Some (l ++ [x], ONone)
  | Pop => match rev l with [] => None | x :: r => Some (rev r, OVal x) end
  | Reserve _ => Some (l, ONone)
  | Set_ pos x => if (pos <? length l)%nat then Some (firstn pos l ++ x :: skipn (S pos) l, OVal x) else None
  | At_ pos => match nth_error l pos with Some x => Some (l, OVal x) | None => None end
  | Front => match l with [] => None | x :: _ => Some (l, OVal x) end
  | Back => match rev l with [] => None | x :: _ => Some (l, OVal x) end
  | Size => Some (l, OSize (length l))
  end.
Fixpoint spec_run {A} (l : list A) (os : list (op A)) : option (list A * list (obs A)) :=
  match os with
  | [] => Some (l, [])
  | o :: os => match spec_step l o with
               | None => None
               | Some (l, b) => match spec_run l os with None => None | Some (l, bs) => Some (l, b :: bs) end
               end
  end.

(** memory needed: the largest size or reserved size so far, doubled *)
Definition demand {A} (o : op A) : nat := match o with Push _ => 2 | Reserve n => 2 * n | _ => 0 end.
Definition demands {A} (os : list (op A)) : nat := fold_right (fun o s => demand o + s)%nat 8%nat os.
