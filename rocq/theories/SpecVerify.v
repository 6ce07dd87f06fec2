(* SpecVerify.v -- vocabulary for the statements about verify(). *)
From Verif Require Export VerifyModel SpecPre SpecHeap SpecBasis.
From Verif Require SpecEq.
#[local] Open Scope nat_scope.

(* every array that existed before holds what it held before *)
Definition unchanged (h h' : heap) : Prop := forall z, wf h z -> rd h' z = rd h z /\ wf h' z.
(* np.allclose of two n x k matrices with its default tolerances *)
Definition near (n k : nat) (A B : mat) : Prop := forall i j, i < n -> j < k -> SpecEq.close (mget A i j) (mget B i j).
(* the Frobenius norm of A - B and of B *)
Definition distance (n k : nat) (A B : mat) : R := sqrt (bsum n (fun i => bsum k (fun j => Rsqr (mget A i j - mget B i j)))).
Definition norm (n k : nat) (B : mat) : R := sqrt (bsum n (fun i => bsum k (fun j => Rsqr (mget B i j)))).
(* opinf.ddt.ddt(states, t) with the times verify() uses *)
Definition time_ddt (a : arr) : res mat := ddt a [AArray (V vtimes)] [].
(* transform maps entry x of row i to a_i x + b_i, and transform_ddts maps it to a_i x *)
Definition row_affine (n : nat) (a b : vec) (T D : arr -> res arr) : Prop :=
  is_vec n a /\ is_vec n b /\ forall k A, is_mat n k A -> exists B E, T (M A) = Ok (M B) /\ is_mat n k B /\ D (M A) = Ok (M E) /\ is_mat n k E /\
  forall i j, i < n -> j < k -> mget B i j = (vget a i * mget A i j + vget b i)%R /\ mget E i j = (vget a i * mget A i j)%R.
(* the inverse undoes the transformation, on all rows and on any selection of rows *)
Definition inverse_of (n : nat) (T : arr -> res arr) (I : option locsel -> arr -> res arr) : Prop :=
  forall k A, is_mat n k A -> exists B, T (M A) = Ok (M B) /\ is_mat n k B /\ I None (M B) = Ok (M A) /\
  forall idx, Forall (fun i => i < n) idx -> I (Some (zlocs idx)) (asel idx (M B)) = Ok (asel idx (M A)).
(* the random states and locations are as the code draws them: n x 20 states, locations below n *)
Definition draws_ok (rx : list nat -> nat -> mat) (rl : list nat -> nat -> list nat) : Prop :=
  forall path n, is_mat n 20 (rx path n) /\ Forall (fun i => i < n) (rl path n).
(* trained transformers whose verify() calls inverse_transform with locs only where C02 allows it *)
Inductive verifiable : nat -> tf -> Prop :=
| vf_flat n t : 0 < n -> trained n t -> flat t -> verifiable n t
| vf_multi ns l : l <> [] -> Forall2 verifiable ns l -> ((forall x y, In x ns -> In y ns -> x = y) -> Forall flat l) ->
    verifiable (lsumn ns) (TMulti l).
(* the same class, but transform(states, inplace=False) overwrites its argument and returns a copy of it *)
Definition careless (o : vobj) : vobj :=
  {| vo_dim := vo_dim o;
     vo_transform := fun inplace x => hbind (vo_transform o true x) (fun r => if inplace then hret r else hbind (hcopy (snd r)) (fun c => hret (tt, c)));
     vo_inverse := vo_inverse o; vo_ddts := vo_ddts o; vo_locs := vo_locs o |}.
(* no method frees memory: an array that exists before a call exists after it *)
Definition no_free (op : bool -> harr -> H (unit * harr)) : Prop := forall fl x h h' r, wf h x -> op fl x h = (h', r) -> forall z, wf h z -> wf h' z.
(* x is an array of n x 20 entries *)
Definition test_array (n : nat) (h : heap) (x : harr) : Prop := wf h x /\ exists A, rd h x = M A /\ is_mat n 20 A.
(* an array of k columns (or a vector) *)
Definition array (a : arr) : Prop := exists n k, shaped n k a.
(* what verify() asks of the methods compress and decompress of a basis: Q, v are what compress returns for the drawn
   states and for the first of them; p, w, x are what decompress returns for Q, for v and for Q at the drawn locations;
   P2 is the projection of p *)
Definition consistent (n k : nat) (idx : list nat) (Q : mat) (v p w x : arr) (P2 : mat) : Prop :=
  ncols Q = k /\ (exists v', v = V v') /\ (exists w', w = V w') /\
  exists P, p = M P /\ is_mat n k P /\ near n k P2 P /\
  exists Z, x = M Z /\ is_mat (length idx) k Z /\ forall i j, i < length idx -> j < k -> SpecEq.close (mget Z i j) (mget P (nth i idx 0) j).
