(* Model of the state kept by CompositeOptimizer, solvers/oracle_torch.py:17-97: inner optimisers, cosine schedulers,
   checkpoints, reset of the multiplier's optimiser, and copies of the object. The updates of the parameters themselves
   are in Oracle_Model. *)
From Coq Require Import Reals List Bool String ZArith.
From Verif Require Import PyBase RList.
Import ListNotations.
Local Open Scope R_scope.

(* torch.optim.lr_scheduler.CosineAnnealingLR(opt, T_max=T), base rate 1, eta_min 0 (torch code, get_lr: the recursive form):
   the new rate when last_epoch becomes [epoch] >= 1. Python's % 0 raises. *)
Definition cosine_next (T epoch : Z) (lr : R) : Result R :=
  if Z.eqb T 0 then Raise ZeroDivisionError
  else Ok (if Z.eqb ((epoch - 1 - T) mod (2 * T)) 0 then lr + (1 - cos (PI / IZR T)) / 2
           else (1 + cos (PI * IZR epoch / IZR T)) / (1 + cos (PI * IZR (epoch - 1) / IZR T)) * lr).

Section Composite.
(* references to parameters, the other options of a parameter group (Prodigy keeps its distance estimate there), the state
   kept per parameter (moments...) *)
Variables A H S : Type.

(* an inner optimiser with its single group: parameters, learning rate, options, state of each parameter *)
Record inner := { i_params : list A; i_lr : R; i_opts : H; i_state : list (option S) }.
(* torch's Optimizer.state_dict(): parameters are replaced by their number *)
Record saved := { v_count : nat; v_lr : R; v_opts : H; v_state : list (option S) }.
Definition inner_save (o : inner) : saved :=
  {| v_count := List.length (i_params o); v_lr := i_lr o; v_opts := i_opts o; v_state := i_state o |}.
(* torch's Optimizer.load_state_dict: group sizes are compared (ValueError), then everything is replaced *)
Definition inner_load (o : inner) (s : saved) : Result inner :=
  if Nat.eqb (List.length (i_params o)) (v_count s)
  then Ok {| i_params := i_params o; i_lr := v_lr s; i_opts := v_opts s; i_state := v_state s |}
  else Raise ValueError.

Record sched := { h_T : Z; h_epoch : Z }.
(* self.opts['params'], self.opts['lbd'], self.schedulers (both or none), self.init_state_lbd *)
Record comp := { k_params : inner; k_lbd : inner; k_sched : option (sched * sched); k_init : saved }.

(* make_optim, oracle_torch.py:21-37: rate 1, options [o0], no state yet *)
Definition make_optim (o0 : H) (ps : list A) : inner :=
  {| i_params := ps; i_lr := 1; i_opts := o0; i_state := repeat None (List.length ps) |}.

(* CompositeOptimizer.__init__, oracle_torch.py:18-55, for an accepted name and at least one parameter (Oracle_Model has the
   tests); building a scheduler sets last_epoch to 0 and leaves the rate at 1; line 54 saves the multiplier's optimiser *)
Definition comp_init (o0 : H) (ps : list A) (lbd : A) (pre train : Z) (prodigy : bool) : comp :=
  let l := make_optim o0 [lbd] in
  {| k_params := make_optim o0 ps; k_lbd := l;
     k_sched := if prodigy then Some ({| h_T := pre + train; h_epoch := 0 |}, {| h_T := train; h_epoch := 0 |}) else None;
     k_init := inner_save l |}.

(* what opt.step() does to an inner optimiser: new options and states, any; the rate and the parameters list are kept *)
Definition upd := inner -> H * list (option S).
Definition inner_step (f : upd) (o : inner) : inner :=
  let '(h, s) := f o in {| i_params := i_params o; i_lr := i_lr o; i_opts := h; i_state := s |}.
(* scheduler.step(): the epoch is increased first *)
Definition sched_step (h : sched) (o : inner) : sched * inner * option exn :=
  let e := (h_epoch h + 1)%Z in
  let h' := {| h_T := h_T h; h_epoch := e |} in
  match cosine_next (h_T h) e (i_lr o) with
  | Ok r => (h', {| i_params := i_params o; i_lr := r; i_opts := i_opts o; i_state := i_state o |}, None)
  | Raise x => (h', o, Some x)
  end.

(* CompositeOptimizer.step, oracle_torch.py:73-81, on this state *)
Definition comp_step (f g : upd) (c : comp) : comp * option exn :=
  let p := inner_step f (k_params c) in
  let l := inner_step g (k_lbd c) in
  match k_sched c with
  | None => ({| k_params := p; k_lbd := l; k_sched := None; k_init := k_init c |}, None)
  | Some (hp, hl) =>
      match sched_step hp p with
      | (hp', p', Some x) => ({| k_params := p'; k_lbd := l; k_sched := Some (hp', hl); k_init := k_init c |}, Some x)
      | (hp', p', None) =>
          let '(hl', l', x) := sched_step hl l in
          ({| k_params := p'; k_lbd := l'; k_sched := Some (hp', hl'); k_init := k_init c |}, x)
      end
  end.

(* a dictionary with string keys *)
Definition lookup {B} (k : string) (d : list (string * B)) : option B :=
  option_map snd (find (fun e => String.eqb (fst e) k) d).

(* state_dict, oracle_torch.py:89-90 *)
Definition comp_state_dict (c : comp) : list (string * saved) :=
  [("params"%string, inner_save (k_params c)); ("lbd"%string, inner_save (k_lbd c))].

(* one iteration of load_state_dict *)
Definition load_one (k : string) (d : list (string * saved)) (o : inner) : Result inner :=
  match lookup k d with None => Raise KeyError | Some s => inner_load o s end.
(* load_state_dict, oracle_torch.py:92-94: 'params' first, then 'lbd' *)
Definition comp_load (d : list (string * saved)) (c : comp) : comp * option exn :=
  match load_one "params" d (k_params c) with
  | Raise e => (c, Some e)
  | Ok p =>
      let c1 := {| k_params := p; k_lbd := k_lbd c; k_sched := k_sched c; k_init := k_init c |} in
      match load_one "lbd" d (k_lbd c) with
      | Raise e => (c1, Some e)
      | Ok l => ({| k_params := p; k_lbd := l; k_sched := k_sched c; k_init := k_init c |}, None)
      end
  end.

(* reset_lbd_state, oracle_torch.py:96-97 *)
Definition comp_reset (c : comp) : comp * option exn :=
  match inner_load (k_lbd c) (k_init c) with
  | Ok l => ({| k_params := k_params c; k_lbd := l; k_sched := k_sched c; k_init := k_init c |}, None)
  | Raise e => (c, Some e)
  end.

(* what a program may do with the optimiser *)
Inductive act := AStep (f g : upd) | ASave | ALoad (d : list (string * saved)) | AReset | AZeroGrad.
(* zero_grad (oracle_torch.py:83-87) touches the gradients only *)
Definition comp_act (a : act) (c : comp) : comp * option exn :=
  match a with
  | AStep f g => comp_step f g c
  | ALoad d => comp_load d c
  | AReset => comp_reset c
  | ASave | AZeroGrad => (c, None)
  end.
(* a program that goes on after an exception *)
Fixpoint comp_acts (l : list act) (c : comp) : comp :=
  match l with [] => c | a :: r => comp_acts r (fst (comp_act a c)) end.
(* a program that stops at the first exception *)
Fixpoint comp_run (l : list act) (c : comp) : comp * option exn :=
  match l with
  | [] => (c, None)
  | a :: r => match comp_act a c with (c', None) => comp_run r c' | x => x end
  end.

(* ---------- copies ---------- *)
(* the instance dictionary of the Python object (the attributes the methods use) *)
Inductive val :=
| VOpts (p l : inner) | VScheds (s : option (sched * sched)) | VSaved (s : saved) | VState (s : saved) | VParam (a : A) | VDict.
Definition obj := list (string * val).
Definition to_obj (lbd : A) (c : comp) : obj :=
  [("lbd"%string, VParam lbd); ("opts"%string, VOpts (k_params c) (k_lbd c)); ("schedulers"%string, VScheds (k_sched c));
   ("init_state_lbd"%string, VSaved (k_init c)); ("defaults"%string, VDict)].

(* __getstate__, oracle_torch.py:57-61: the keys are those of opts *)
Definition getstate (o : obj) : Result obj :=
  match lookup "opts" o, lookup "init_state_lbd" o with
  | Some (VOpts p l), Some s =>
      Ok [("params"%string, VState (inner_save p)); ("lbd"%string, VState (inner_save l)); ("init_state_lbd"%string, s);
          ("defaults"%string, VDict)]
  | _, _ => Raise AttributeError
  end.
(* copy.deepcopy or pickle: a new object without __init__, then torch's Optimizer.__setstate__, which updates __dict__ with the
   result of __getstate__ *)
Definition copy_obj (o : obj) : Result obj := getstate o.

(* a method call: every one of them starts with self.opts (lines 75, 86, 90, 93, 97) *)
Definition obj_act (lbd : A) (a : act) (o : obj) : Result obj :=
  match lookup "opts" o with
  | Some (VOpts p l) =>
      match lookup "schedulers" o, lookup "init_state_lbd" o with
      | Some (VScheds h), Some (VSaved s) =>
          match comp_act a {| k_params := p; k_lbd := l; k_sched := h; k_init := s |} with
          | (c, None) => Ok (to_obj lbd c)
          | (_, Some e) => Raise e
          end
      | _, _ => Raise AttributeError
      end
  | _ => Raise AttributeError
  end.
End Composite.
Arguments i_params {A H S}. Arguments i_lr {A H S}. Arguments i_opts {A H S}. Arguments i_state {A H S}.
Arguments v_count {H S}. Arguments v_lr {H S}. Arguments v_opts {H S}. Arguments v_state {H S}.
Arguments k_params {A H S}. Arguments k_lbd {A H S}. Arguments k_sched {A H S}. Arguments k_init {A H S}.
Arguments inner_save {A H S}. Arguments inner_load {A H S}. Arguments make_optim {A H S}. Arguments comp_init {A H S}.
Arguments inner_step {A H S}. Arguments sched_step {A H S}. Arguments comp_step {A H S}. Arguments comp_state_dict {A H S}.
Arguments load_one {A H S}. Arguments comp_load {A H S}. Arguments comp_reset {A H S}. Arguments comp_act {A H S}.
Arguments comp_acts {A H S}. Arguments comp_run {A H S}. Arguments AStep {A H S}. Arguments ASave {A H S}.
Arguments ALoad {A H S}. Arguments AReset {A H S}. Arguments AZeroGrad {A H S}. Arguments to_obj {A H S}.
Arguments getstate {A H S}. Arguments copy_obj {A H S}. Arguments obj_act {A H S}.
