(* SpecVerifyLift.v -- vocabulary for the statements about verify() of lifters. *)
From Verif Require Export VerifyLiftModel SpecVerify SpecDdt.
#[local] Open Scope nat_scope.

(* L stacks the powers of the n x k matrix Q with these exponents *)
Definition powers (n k : nat) (ns : list nat) (Q L : mat) : Prop :=
  is_mat (length ns * n) k L /\ forall a i j, a < length ns -> i < n -> j < k -> mget L (a * n + i) j = (mget Q i j ^ nth a ns 0%nat)%R.
(* E stacks the derivatives p Q^(p-1) D of these powers, D being the derivative of Q *)
Definition power_derivatives (n k : nat) (ns : list nat) (Q D E : mat) : Prop :=
  is_mat (length ns * n) k E /\ forall a i j, a < length ns -> i < n -> j < k ->
    mget E (a * n + i) j = (INR (nth a ns 0%nat) * mget Q i j ^ (nth a ns 0 - 1)%nat * mget D i j)%R.
(* within the relative tolerance (of 0: equal to it) *)
Definition within (N k : nat) (tol : R) (A B : mat) : Prop := (distance N k A B <= tol * norm N k B)%R.
(* every entry of the two-dimensional array W is a number close to that of Q *)
Definition nears (n k : nat) (W : narr) (Q : mat) : Prop := forall i j, i < n -> j < k -> exists x, nget W i j = F x /\ (Rabs (x - mget Q i j) <= / 10 ^ 8 + / 10 ^ 5 * Rabs (mget Q i j))%R.
(* everything a lifter that passed has been shown to satisfy for these n x k states *)
Definition lifter_checked (o : lifter) (n k : nat) (Q : mat) (t : option pyarg) (tol : R) : Prop :=
  exists L W, vl_lift o (M Q) = Ok (NM L) /\ length (hd [] L) = k /\ vl_unlift o (NM L) = Ok (NM W) /\ length W = n /\ length (hd [] W) = k /\
  ((forall row, In row W -> length row = k) -> nears n k (NM W) Q) /\
  forall dd, vl_ddts o = Some dd ->
    exists t' D Lf Ef est, t = Some t' /\ ddt (M Q) [t'] [] = Ok D /\ dd (M Q) (M D) = Ok (finite (M Ef)) /\ NM L = finite (M Lf) /\
      ddt (M Lf) [t'] [] = Ok est /\
      (forall N, is_mat N k Ef -> is_mat N k est -> (0 <= tol)%R -> within N k tol Ef est).
