(** Model of [Model_basis_change]: a model in a basis given by the user
    (c3/model.py 700-736, with 453-491 and 504-534). *)
From Coq Require Import Reals.
From Coquelicot Require Import Complex.
From Verif Require Import Base Mat PropModel ExpModel FrameModel.
Local Open Scope nat_scope.

(** model.py 725-728: the basis given by the user, the identity if there is none. *)
Definition basis_of (U : option mat) : mat := match U with None => mid | Some v => v end.
(** model.py 722-736: [update_drift_eigen] of the subclass: the energies are zeros, the attributes
    [reorder_matrix] and [transform] are set.  [n] is [tot_dim]. *)
Definition basis_change (n : nat) (U : option mat) (ordered : bool) : (nat -> nat -> R) * mat :=
  let '(reorder, _, T) := reorder_frame n (fun _ => 0%R) (basis_of U) ordered in (reorder, T).
(** model.py 504-534: [update_dressed] with the overridden [update_drift_eigen]. *)
Definition basis_operators (n : nat) (U : option mat) (ordered : bool) (o : operators) : operators :=
  dressed_operators n (snd (basis_change n U ordered)) o.
(** model.py 353-366, 417-421, 515-517: what the propagation methods read off the model. *)
Definition basis_view (n : nat) (dims : list nat) (lind : bool) (U : option mat) (ordered : bool) (o : operators) : pmodel :=
  model_view n dims lind (Some (snd (basis_change n U ordered))) o.
