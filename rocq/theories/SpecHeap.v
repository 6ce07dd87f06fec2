(* SpecHeap.v -- vocabulary for the statements about the inplace flag. *)
From Verif Require Export PreHeap.
#[local] Open Scope nat_scope.

(* an existing array: every cell is in use and no cell is shown twice *)
Definition wf (h : heap) (x : harr) : Prop := NoDup (addrs x) /\ Forall (fun a => a < hnext h) (addrs x).
(* two arrays that share no storage *)
Definition disjoint (x y : harr) : Prop := forall a, In a (addrs x) -> ~ In a (addrs y).
(* What the inplace flag promises, for a method whose result on values is f:
   - an existing array changes only if inplace=True and it shares storage with the argument (also when the call raises);
   - the result holds f of what the argument held, or the call raises what f raises;
   - the result is the argument itself (inplace=True) or an array that shares no storage with any existing one. *)
Definition respects_inplace {B} (method : bool -> harr -> H (B * harr)) (f : arr -> res (B * arr)) : Prop :=
  forall inplace h x h' r, wf h x -> method inplace x h = (h', r) ->
  (forall z, wf h z -> (inplace = true -> disjoint z x) -> rd h' z = rd h z /\ wf h' z) /\
  match r with
  | Ok (b, y) => f (rd h x) = Ok (b, rd h' y) /\ wf h' y /\ (if inplace then y = x else forall z, wf h z -> disjoint z y)
  | Err e => f (rd h x) = Err e
  end.
(* a method that returns nothing but the array *)
Definition no_output (f : arr -> res arr) (a : arr) : res (unit * arr) := do b <- f a; Ok (tt, b).
(* a call of one of the four methods *)
Inductive call := CTransform (t : tf) | CDdts (t : tf) | CInverse (t : tf) (locs : option locsel) | CFit (t : tf).
Definition run_call (c : call) (inplace : bool) (x : harr) (h : heap) : heap :=
  match c with
  | CTransform t => fst (htransform t inplace x h)
  | CDdts t => fst (htransform_ddts t inplace x h)
  | CInverse t locs => fst (hinverse locs t inplace x h)
  | CFit t => fst (hfit_transform t inplace x h)
  end.
(* the memory after a sequence of calls, on existing arrays, none of them in place on storage shared with z *)
Inductive history (z : harr) : heap -> heap -> Prop :=
| hist_nil h : history z h h
| hist_cons c inplace x h h' : wf h x -> (inplace = true -> disjoint z x) -> history z (run_call c inplace x h) h' -> history z h h'.
