(** * SpecLoop: terminal sets and closed loops of piecewise affine systems, independently of the code model *)
From Verif Require Import Arr Spec SpecDyn SpecMpc.

(** in every state of XN some input of some mode keeps the state in XN and lowers the terminal cost by the stage cost *)
Definition pwa_terminal (As Bs : list mat) (cs : list vec) (doms : list (vec -> Prop)) (XN : vec -> Prop) (Q Rm P : mat) (nu : nat) : Prop :=
  forall x, XN x -> exists m u, (m < length As)%nat /\ length u = nu /\ nth m doms (fun _ => False) (x ++ u) /\
    let x' := affine_step (nth m As (Mat 0 [])) (nth m Bs (Mat 0 [])) (nth m cs []) x u in
    XN x' /\ / 2 * dot x' (mv P x') <= / 2 * dot x (mv P x) - / 2 * (dot x (mv Q x) + dot u (mv Rm u)).
