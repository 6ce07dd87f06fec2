(* SpecItem.v -- vocabulary of property C77. *)
From Coq Require Import ZArith List.
From Verif Require Import LinAlg PreModel BasisModel SpecPre.
Import ListNotations.
#[local] Open Scope nat_scope.

(* the member with this name that comes first, and its position *)
Definition first_named {A} (name : A -> option pystr) (l : list A) (s : pystr) (i : nat) (x : A) : Prop :=
  nth_error l i = Some x /\ name x = Some s /\ forall j y, j < i -> nth_error l j = Some y -> name y <> Some s.
(* the position a key refers to: a name to the first variable that has it, i >= 0 to variable i, -k to the k-th variable from the end *)
Inductive refers {A} (name : A -> option pystr) (l : list A) : varsel -> nat -> Prop :=
| by_name s i x : first_named name l s i x -> refers name l (VName s) i
| by_index i : i < length l -> refers name l (VIdx (Z.of_nat i)) i
| from_the_end k : 0 < k <= length l -> refers name l (VIdx (- Z.of_nat k)) (length l - k).
(* two transformers that differ at most in the name and the state dimension *)
Definition same_settings (s s' : ss) : Prop :=
  ss_cent s = ss_cent s' /\ ss_scaling s = ss_scaling s' /\ ss_byrow s = ss_byrow s' /\
  ss_mean s = ss_mean s' /\ ss_scale s = ss_scale s' /\ ss_shift s = ss_shift s'.
Definition same_transformer (t t' : tf) : Prop :=
  match t, t' with
  | TShift r _, TShift r' _ => r = r'
  | TScale c _ _, TScale c' _ _ => c = c'
  | TSS s, TSS s' => same_settings s s'
  | TNull _ _, TNull _ _ => True
  | TPipe l _, TPipe l' _ => l = l'
  | TMulti l, TMulti l' => l = l'
  | _, _ => False
  end.
(* a transformer that is given as None is a NullTransformer *)
Definition given (o : option tf) : tf := match o with Some t => t | None => TNull None None end.
Definition multi (t : tf) : Prop := match t with TMulti _ => True | _ => False end.
Definition pipeline (t : tf) : Prop := match t with TPipe _ _ => True | _ => False end.
