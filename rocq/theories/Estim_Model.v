(* Model of the estimators: constructors and fit of skwdro/operations_research/{_newsvendor,_portfolio,_weber}.py and
   skwdro/linear_models/{_linear_regression,_logistic_regression}.py, up to the call of a solver. Input validation by
   scikit-learn (check_array, check_X_y) is left out: X is a matrix as a list of rows, y a vector. rho is a number, so that
   float(rho) succeeds. *)
From Coq Require Import Reals List Bool ZArith String Ascii Arith.
From Verif Require Import PyBase RList XReal CostDecoder_Model OptCond_Model Samplers_Model Wrap_Model.
Import ListNotations.
Local Open Scope R_scope.

(* Python: sub in s *)
Fixpoint contains (sub s : string) : bool :=
  if String.prefix sub s then true else match s with EmptyString => false | String _ r => contains sub r end.

(* What fit hands over: one of the dedicated programmes, or the arguments of the dual loss together with the linear map put
   before the primal loss (inputs, outputs, with a bias or not). *)
Inductive fitted :=
| FDedicated
| FTorch (a : dual_args) (transform : option (nat * nat * bool)).

Definition adapt_of (lr : option R) : option string := match lr with None => Some "prodigy"%string | Some _ => None end.
Definition width (X : batch) : nat := match X with [] => 0%nat | r :: _ => List.length r end.

(* rho < 0 raises in the five constructors: _newsvendor.py:93-95, _weber.py:75-77, _linear_regression.py:108-110,
   _logistic_regression.py:114-121 (and _portfolio.py:105-121, modelled in Loss_Model.pf_init) *)
Definition check_rho (rho : R) : Result unit := if Rltb rho 0 then Raise ValueError else Ok tt.

Section Fit.
Variable pyfloat : string -> option xr.
(* cost_from_str(self.cost), for its exceptions *)
Definition decode_cost (code : string) : Result (cost xr) := cost_from_str xr pyfloat dk x_ge0 code.

(* ---------- NewsVendor, _newsvendor.py:77-108 ---------- *)
Record nv_args := { nv_rho : R; nv_k : R; nv_u : R; nv_cost : string; nv_l2_reg : R; nv_solver_reg : R; nv_lr : option R;
                    nv_n_zeta : Z; nv_solver_name : string; nv_seed : Z; nv_n_iter : option steps }.
Definition nv_defaults : nv_args :=
  {| nv_rho := 1 / 100; nv_k := 5; nv_u := 7; nv_cost := "t-NC-1-2"; nv_l2_reg := 0; nv_solver_reg := 1 / 100; nv_lr := None;
     nv_n_zeta := 10; nv_solver_name := "entropic"; nv_seed := 0; nv_n_iter := None |}.
(* fit, _newsvendor.py:110-199: features are averaged at :141 *)
Definition nv_dispatch (a : nv_args) (X : batch) : Result fitted :=
  let X := map (fun r => [rmean r]) X in
  do _ <- decode_cost (nv_cost a);
  if String.eqb (nv_solver_name a) "entropic" then Raise DeprecationWarning
  else if contains "torch" (nv_solver_name a) then
    do d <- dualize pyfloat
      {| u_rho := nv_rho a; u_xi := X; u_labels := None; u_post := String.eqb (nv_solver_name a) "entropic_torch_post";
         u_cost := Some (nv_cost a); u_n_samples := nv_n_zeta a; u_seed := Some (nv_seed a); u_reduction := None;
         u_lr := nv_lr a; u_epsilon := Some (nv_solver_reg a); u_sigma := None; u_l2reg := None;
         u_adapt := adapt_of (nv_lr a); u_n_iter := nv_n_iter a; u_imp_samp := true; u_reduces := false |};
    Ok (FTorch d None)
  else if String.eqb (nv_solver_name a) "dedicated" then Ok FDedicated
  else Raise NotImplementedError.

(* ---------- Portfolio, _portfolio.py:83-136; C and d given or not, reparam and fit_intercept are stored only ---------- *)
Record pf_args := { pf_rho : R; pf_eta : R; pf_alpha : R; pf_C : option (list vec); pf_d : option vec; pf_fit_intercept : option bool;
                    pf_cost : string; pf_solver_name : string; pf_solver_reg : R; pf_reparam : string; pf_lr : option R;
                    pf_n_zeta : Z; pf_seed : Z; pf_n_iter : option steps }.
Definition pf_defaults : pf_args :=
  {| pf_rho := 1 / 100; pf_eta := 0; pf_alpha := 95 / 100; pf_C := None; pf_d := None; pf_fit_intercept := None;
     pf_cost := "t-NC-1-1"; pf_solver_name := "dedicated"; pf_solver_reg := 1 / 1000; pf_reparam := "softmax"; pf_lr := None;
     pf_n_zeta := 10; pf_seed := 0; pf_n_iter := None |}.
(* np.shape(self.C_)[1] != m, _portfolio.py:179-196; a matrix without rows is not modelled *)
Definition pf_columns (a : pf_args) (m : nat) : nat :=
  match pf_C a, pf_d a with Some C, Some _ => width C | _, _ => m end.
(* fit, _portfolio.py:138-257 *)
Definition pf_dispatch (a : pf_args) (X : batch) : Result fitted :=
  do _ <- decode_cost (pf_cost a);
  if negb (pf_columns a (width X) =? width X)%nat then Raise ValueError
  else if String.eqb (pf_solver_name a) "entropic" then Raise DeprecationWarning
  else if String.eqb (pf_solver_name a) "dedicated" then Ok FDedicated
  else if contains "torch" (pf_solver_name a) then
    do d <- dualize pyfloat
      {| u_rho := pf_rho a; u_xi := X; u_labels := None; u_post := negb (contains "post" (pf_solver_name a));
         u_cost := Some (pf_cost a); u_n_samples := pf_n_zeta a; u_seed := Some (pf_seed a); u_reduction := None;
         u_lr := pf_lr a; u_epsilon := Some (pf_solver_reg a); u_sigma := None; u_l2reg := Some 0;
         u_adapt := adapt_of (pf_lr a); u_n_iter := pf_n_iter a; u_imp_samp := true; u_reduces := false |};
    Ok (FTorch d None)
  else Raise NotImplementedError.

(* ---------- Weber, _weber.py:59-90 ---------- *)
Record wb_args := { wb_rho : R; wb_kappa : R; wb_solver_reg : R; wb_sampler_reg : R; wb_lr : option R; wb_l2_reg : R; wb_n_zeta : Z;
                    wb_cost : string; wb_solver_name : string; wb_seed : Z; wb_n_iter : option steps }.
Definition wb_defaults : wb_args :=
  {| wb_rho := 1 / 10; wb_kappa := 10; wb_solver_reg := 1 / 100; wb_sampler_reg := 1 / 100; wb_lr := None; wb_l2_reg := 0;
     wb_n_zeta := 10; wb_cost := "t-NLC-2-2"; wb_solver_name := "entropic_torch"; wb_seed := 0; wb_n_iter := None |}.
(* self._wdro_loss.n_iter = 300, _weber.py:149-151 *)
Definition set_n_iter (n : steps) (a : dual_args) : dual_args :=
  {| a_post := a_post a; a_cost := a_cost a; a_sampler := a_sampler a; a_has_labels := a_has_labels a; a_reduce_spatial := a_reduce_spatial a;
     a_l2reg := a_l2reg a; a_n_iter := n; a_rho := a_rho a; a_n_samples := a_n_samples a; a_epsilon := a_epsilon a;
     a_reduction := a_reduction a; a_imp_samp := a_imp_samp a; a_lr := a_lr a; a_adapt := a_adapt a |}.
(* post-sampling name test, _weber.py:131, _linear_regression.py:181, _logistic_regression.py:260-262 *)
Definition post_name (s : string) : bool := String.eqb s "entropic_torch" || String.eqb s "entropic_torch_post".
(* fit, _weber.py:92-167 *)
Definition wb_dispatch (a : wb_args) (X : batch) (y : vec) : Result fitted :=
  if String.eqb (wb_solver_name a) "entropic" then Raise DeprecationWarning
  else if contains "torch" (wb_solver_name a) then
    do d <- dualize pyfloat
      {| u_rho := wb_rho a; u_xi := X; u_labels := Some (map (fun v => [v]) y); u_post := post_name (wb_solver_name a);
         u_cost := Some (wb_cost a); u_n_samples := wb_n_zeta a; u_seed := Some (wb_seed a); u_reduction := None;
         u_lr := wb_lr a; u_epsilon := Some (wb_solver_reg a); u_sigma := Some (wb_sampler_reg a); u_l2reg := Some (wb_l2_reg a);
         u_adapt := adapt_of (wb_lr a); u_n_iter := wb_n_iter a; u_imp_samp := true; u_reduces := false |};
    Ok (FTorch (match wb_n_iter a with None => set_n_iter (SInt 300) d | Some _ => d end) None)
  else Raise NotImplementedError.

(* ---------- LinearRegression, _linear_regression.py:93-123 ---------- *)
Record lr_args := { lr_rho : R; lr_l2_reg : R; lr_fit_intercept : bool; lr_cost : string; lr_solver_name : string;
                    lr_solver_reg : option R; lr_sampler_reg : option R; lr_lr : option R; lr_n_zeta : Z; lr_seed : Z; lr_n_iter : option steps }.
Definition lr_defaults : lr_args :=
  {| lr_rho := 1 / 100; lr_l2_reg := 0; lr_fit_intercept := true; lr_cost := "t-NLC-2-2"; lr_solver_name := "entropic_torch";
     lr_solver_reg := None; lr_sampler_reg := None; lr_lr := None; lr_n_zeta := 10; lr_seed := 0; lr_n_iter := None |}.
(* fit, _linear_regression.py:125-223; nn.Linear(d, 1) at :184 has a bias *)
Definition lr_dispatch (a : lr_args) (X : batch) (y : vec) : Result fitted :=
  do _ <- decode_cost (lr_cost a);
  if String.eqb (lr_solver_name a) "entropic" then Raise DeprecationWarning
  else if contains "torch" (lr_solver_name a) then
    do d <- dualize pyfloat
      {| u_rho := lr_rho a; u_xi := X; u_labels := Some (map (fun v => [v]) y); u_post := post_name (lr_solver_name a);
         u_cost := Some (lr_cost a); u_n_samples := lr_n_zeta a; u_seed := Some (lr_seed a); u_reduction := None;
         u_lr := lr_lr a; u_epsilon := lr_solver_reg a; u_sigma := lr_sampler_reg a; u_l2reg := Some (lr_l2_reg a);
         u_adapt := adapt_of (lr_lr a); u_n_iter := lr_n_iter a; u_imp_samp := post_name (lr_solver_name a); u_reduces := false |};
    Ok (FTorch d (Some (width X, 1%nat, true)))
  else if String.eqb (lr_solver_name a) "dedicated" then Ok FDedicated
  else Raise NotImplementedError.

(* ---------- LogisticRegression, _logistic_regression.py:99-134 ---------- *)
Record lg_args := { lg_rho : R; lg_l2_reg : R; lg_fit_intercept : bool; lg_cost : string; lg_solver_name : string;
                    lg_solver_reg : option R; lg_sampler_reg : option R; lg_lr : option R; lg_n_zeta : Z; lg_seed : Z; lg_n_iter : option steps }.
Definition lg_defaults : lg_args :=
  {| lg_rho := 1 / 100; lg_l2_reg := 0; lg_fit_intercept := true; lg_cost := "t-NLC-2-2"; lg_solver_name := "entropic_torch";
     lg_solver_reg := None; lg_sampler_reg := None; lg_lr := None; lg_n_zeta := 10; lg_seed := 0; lg_n_iter := None |}.

(* unique_labels(y), _logistic_regression.py:175: the sorted distinct labels. Labels are integers here (any sortable values
   behave alike). *)
Fixpoint insert_label (v : Z) (l : list Z) : list Z :=
  match l with
  | [] => [v]
  | w :: r => if (v <? w)%Z then v :: l else if (v =? w)%Z then l else w :: insert_label v r
  end.
Definition unique_labels (y : list Z) : list Z := fold_right insert_label [] y.
(* LabelEncoder.transform: index among the classes *)
Fixpoint index_of (v : Z) (l : list Z) : nat := match l with [] => 0 | w :: r => if (v =? w)%Z then 0 else S (index_of v r) end.
(* the targets given to the problem, _logistic_regression.py:178-205: a column of -1/+1 for two classes, one-hot rows for more *)
Definition lg_targets (y : list Z) : Result (list vec) :=
  let classes := unique_labels y in
  match List.length classes with
  | 2%nat => Ok (map (fun v => [let e := INR (index_of v classes) in if Reqb e 0 then -1 else e]) y)
  | 0%nat | 1%nat => Raise ValueError
  | _ => Ok (map (fun v => map (fun c => if (v =? c)%Z then 1 else 0) classes) y)
  end.
(* fit, _logistic_regression.py:136-338 *)
Definition lg_dispatch (a : lg_args) (X : batch) (y : list Z) : Result fitted :=
  do targets <- lg_targets y;
  let k := List.length (unique_labels y) in
  let bilat := (k =? 2)%nat in
  do _ <- decode_cost (lg_cost a);
  if String.eqb (lg_solver_name a) "entropic" then Raise DeprecationWarning
  else if String.eqb (lg_solver_name a) "dedicated" then (if (2 <? k)%nat then Raise NotImplementedError else Ok FDedicated)
  else if contains "torch" (lg_solver_name a) then
    do d <- dualize pyfloat
      {| u_rho := lg_rho a; u_xi := X; u_labels := Some targets; u_post := post_name (lg_solver_name a);
         u_cost := Some (lg_cost a); u_n_samples := lg_n_zeta a; u_seed := Some (lg_seed a); u_reduction := None;
         u_lr := lg_lr a; u_epsilon := lg_solver_reg a; u_sigma := lg_sampler_reg a; u_l2reg := Some (lg_l2_reg a);
         u_adapt := adapt_of (lg_lr a); u_n_iter := lg_n_iter a; u_imp_samp := post_name (lg_solver_name a); u_reduces := negb bilat |};
    Ok (FTorch d (Some (width X, if bilat then 1%nat else k, lg_fit_intercept a)))
  else Raise NotImplementedError.
End Fit.
