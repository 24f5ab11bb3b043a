(** Mathematical vocabulary for spacings, quadrature and interpolation. *)
From Verif Require Import Base.
From Coq Require Import Reals.
Open Scope Z_scope.

(** The accessor [c] yields the numbers [x 0, ..., x (N-1)]. *)
Definition Points (c : Z -> outcome R) (N : Z) (x : Z -> R) : Prop :=
  forall i, 0 <= i < N -> c i = Ok (x i).
Definition Increasing (N : Z) (x : Z -> R) : Prop :=
  forall i j, 0 <= i < j -> j < N -> (x i < x j)%R.
Definition OddSymmetric (N : Z) (x : Z -> R) : Prop :=
  forall i, 0 <= i < N -> x (N - 1 - i) = (- x i)%R.
Definition EvenSymmetric (N : Z) (w : Z -> R) : Prop :=
  forall i, 0 <= i < N -> w (N - 1 - i) = w i.
Definition Distinct (N : Z) (x : Z -> R) : Prop :=
  forall i j, 0 <= i < N -> 0 <= j < N -> x i = x j -> i = j.

(** Legendre polynomials, by Bonnet's recurrence
    (k+2) P_{k+2}(x) = (2k+3) x P_{k+1}(x) - (k+1) P_k(x). *)
Fixpoint legendre (n : nat) (x : R) : R :=
  match n with
  | O => 1
  | S m =>
      match m with
      | O => x
      | S k => ((2 * INR k + 3) * x * legendre m x - (INR k + 1) * legendre k x) / (INR k + 2)
      end
  end%R.

(** The polynomial with the given coefficients, lowest degree first. *)
Fixpoint peval (p : list R) (x : R) : R :=
  match p with
  | [] => 0
  | c :: p' => c + x * peval p' x
  end%R.

(** The sum of x_0 .. x_(n-1). *)
Definition Zsum (n : Z) (x : Z -> R) : R := fold_right Rplus 0%R (map x (zseq (Z.to_nat n))).

(** The size of a polynomial: the sum of the absolute values of its coefficients. *)
Definition norm1 (p : list R) : R := fold_right Rplus 0%R (map Rabs p).

Definition tenth (k : nat) : R := (/ 10 ^ k)%R.
