(* SpecObj.v -- specification of an operator object: it is nothing but its current entries. *)
From Verif Require Import EntriesModel.
#[local] Open Scope nat_scope.

(* specification: the object is just its current entries *)
Definition spec_step (junk : nat -> vec) (c : cls) (e : option op) (k : call) : option op * answer :=
  match k with
  | SetEntries x => match set_entries c x with
                    | Ok (Dense o) => (Some o, AUnit (Ok tt))
                    | Ok _ => (e, AUnit (Err OtherError))
                    | Err x => (e, AUnit (Err x)) end
  | DelEntries => (None, AUnit (Ok tt))
  | Apply q u => (e, AArr (match e with None => Err AttributeError | Some o => apply o q u end))
  | Jacobian q u => (e, AJac (match e with None => Err AttributeError | Some o => jacobian junk o q u end))
  end.
Fixpoint spec_run (junk : nat -> vec) (c : cls) (e : option op) (ks : list call) : option op * list answer :=
  match ks with
  | [] => (e, [])
  | k :: ks' => let '(e1, a) := spec_step junk c e k in let '(e2, l) := spec_run junk c e1 ks' in (e2, a :: l)
  end.

