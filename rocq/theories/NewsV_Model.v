(* Model of the dedicated newsvendor solvers, skwdro/solvers/specific_solvers.py:8-109, and of the branch of NewsVendor.fit that
   calls them, operations_research/_newsvendor.py:182-191. Demands are the single column of [samples]; numbers are exact.
   The linear-programming solver is outside: its answer is an argument. *)
From Coq Require Import Reals List Bool.
From Verif Require Import PyBase RList XReal.
Import ListNotations.
Local Open Scope R_scope.

(* np.sort on a column *)
Fixpoint insert (x : R) (l : list R) : list R :=
  match l with [] => [x] | y :: r => if Rle_dec x y then x :: l else y :: insert x r end.
Fixpoint nsort (l : list R) : list R := match l with [] => [] | x :: r => insert x (nsort r) end.

(* a, b, c of specific_solvers.py:13-15 at index i, for the sorted demands z *)
Definition nv_a (z : list R) (i : nat) : R := rsum (firstn i z).
Definition nv_b (z : list R) (rho : R) (i : nat) : R := INR (length z) * rho - nth (S i) z 0.
Definition nv_c (z : list R) (rho : R) : R := INR (length z) * rho.

(* lower_bound, upper_bound, :17-18 *)
Definition nv_lower (z : list R) (rho : R) (i : nat) : bool := Rltb (nv_b z rho i) (nv_a z i).
Definition nv_upper (z : list R) (rho : R) (i : nat) : bool := Rleb (nv_a z i) (nv_c z rho).

(* condition.index(True), :27-28: the first index with a true entry; None = ValueError *)
Fixpoint first_index (f : nat -> bool) (l : list nat) : option nat :=
  match l with [] => None | i :: r => if f i then Some i else first_index f r end.

(* T, :30-32 (division by a zero demand is not modelled; it does not occur, see C48) *)
Definition nv_T (z : list R) (k u rho zi : R) : R :=
  u * rho / zi + k - u * rmean (map (fun x => Rmin (x / zi) 1) z).

(* WDRONewsvendorSpecificSolver, specific_solvers.py:8-37: (coef, dual_var); [saa] is the answer of
   SAANewsvendorSpecificSolver2 on the same data. Which exit was taken is returned too, for the statements. *)
Inductive nv_exit := ExitNoLower | ExitNoUpper | ExitZero (T : R) | ExitSAA (T : R).
Definition nv_exit_of (k u rho : R) (samples : list R) : Result nv_exit :=
  let z := nsort samples in
  let idx := seq 0 (length z - 1) in
  if negb (existsb (nv_lower z rho) idx) then Ok ExitNoLower
  else if negb (existsb (nv_upper z rho) idx) then Ok ExitNoUpper
  else match first_index (fun i => nv_upper z rho i && nv_lower z rho i) idx with
       | None => Raise ValueError
       | Some i =>
           let T := nv_T z k u rho (nth (S i) z 0) in
           if Rleb 0 T then Ok (ExitZero T) else Ok (ExitSAA T)
       end.
Definition nv_solver (saa : R) (k u rho : R) (samples : list R) : Result (R * R) :=
  do e <- nv_exit_of k u rho samples;
  match e with
  | ExitNoLower | ExitSAA _ => Ok (saa, 0)
  | ExitNoUpper | ExitZero _ => Ok (0, 0)
  end.

(* NewsVendor.fit, dedicated branch, _newsvendor.py:182-191: (coef_, dual_var_) *)
Definition nv_fit (saa : R) (k u rho : R) (samples : list R) : Result (R * R) :=
  do (coef, _) <- nv_solver saa k u rho samples;
  Ok (coef, if Reqb coef 0 then 0 else u).

(* The programme of SAANewsvendorSpecificSolver2, specific_solvers.py:96-105: variables beta (n) and theta *)
Definition saa2_objective (k u : R) (beta : list R) (theta : R) : R := k * theta - u * 1 / INR (length beta) * rsum beta.
Definition saa2_feasible (z beta : list R) (theta : R) : Prop :=
  0 <= theta /\ length beta = length z /\ Forall2 (fun b x => b <= theta /\ b <= x) beta z.

(* The programme of SAANewsvendorSpecificSolver, specific_solvers.py:60-80: variables theta and s (n), with
   (k-u) theta - s_i <= 0 and k theta - s_i <= u z_i *)
Definition saa1_objective (s : list R) : R := rsum (map (fun x => 1 / INR (length s) * x) s).
Definition saa1_feasible (k u : R) (z s : list R) (theta : R) : Prop :=
  length s = length z /\ Forall2 (fun si x => (k - u) * theta - si <= 0 /\ k * theta - si <= u * x) s z.

(* theta is part of a solution of the programme passed to cvxpy (:105) or cvxopt (:77) *)
Definition saa2_optimal (k u : R) (z : list R) (theta : R) : Prop :=
  exists beta, saa2_feasible z beta theta /\ forall beta' theta', saa2_feasible z beta' theta' -> saa2_objective k u beta theta <= saa2_objective k u beta' theta'.

Definition saa1_optimal (k u : R) (z : list R) (theta : R) : Prop :=
  exists s, saa1_feasible k u z s theta /\ forall s' theta', saa1_feasible k u z s' theta' -> saa1_objective s <= saa1_objective s'.
