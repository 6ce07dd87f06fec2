(* SpecReproj.v -- vocabulary for property C48. *)
From Coq Require Import ZArith.
From Verif Require Export SpecMono ReprojModel.
#[local] Open Scope nat_scope.

Definition uvec (u : uin) : vec := match u with US x => [x] | UV v => v end.
(* the caller's function is the right-hand side of the full-order model d *)
Definition simulates (f : vec -> option uin -> res vec) (d : model) (n : nat) : Prop :=
  forall x u, is_vec n x -> f x u = rhs_vec d x (option_map (fun u => V (uvec u)) u).
(* inputs for k steps are given exactly when the model takes inputs *)
Definition driven (d : model) (k : nat) (inputs : option arr) : Prop :=
  (m_hasin d = false /\ inputs = None) \/
  (m_hasin d = true /\ exists u m k', inputs = Some u /\ m_m d = Some m /\ is_mat m k' (atleast_2d u) /\ k <= k').
(* a basis with r orthonormal columns *)
Definition orthobasis (n r : nat) (B : mat) : Prop := 0 < n /\ 0 < r /\ is_mat n r B /\ matmul (mT B) B = eye r.
(* no nontrivial combination of the columns of D vanishes *)
Definition independent_columns (k w : nat) (D : mat) : Prop :=
  is_mat k w D /\ forall x, is_vec w x -> (forall t, t < k -> bsum w (fun b => (mget D t b * vget x b)%R) = 0%R) -> forall b, b < w -> vget x b = 0%R.
(* a model all of whose operators are to be learned, with operators of the classes of d, in the same order *)
Definition learns_all_of (e d : model) : Prop := m_known e = [] /\ map mo_cls (m_ops e) = map mo_cls (m_ops d).
