(** * SpecHyb: one switched system follows another one, independently of the code model *)
From Verif Require Import Arr Spec SpecDyn SpecMpc.

(** Every step (x, u) of the first system in one of its domains is, in the coordinates T x and G u, a step of the second
    one in one of its domains; terminal states are mapped to terminal states; the costs grow at most by the factor c. *)
Definition follows (As Bs : list mat) (cs : list vec) (doms : list (vec -> Prop)) (XN : vec -> Prop) (Q Rm P : mat) (nx nu : nat)
    (As' Bs' : list mat) (cs' : list vec) (doms' : list (vec -> Prop)) (XN' : vec -> Prop) (Q' Rm' P' : mat) (nx' nu' : nat)
    (T G : vec -> vec) (c : R) : Prop :=
  (forall x, length x = nx -> length (T x) = nx') /\ (forall u, length u = nu -> length (G u) = nu') /\
  (forall i x u, (i < length As)%nat -> length x = nx -> length u = nu -> nth i doms (fun _ => False) (x ++ u) ->
    exists j, (j < length As')%nat /\ nth j doms' (fun _ => False) (T x ++ G u) /\
      affine_step (nth j As' (Mat 0 [])) (nth j Bs' (Mat 0 [])) (nth j cs' []) (T x) (G u) = T (affine_step (nth i As (Mat 0 [])) (nth i Bs (Mat 0 [])) (nth i cs []) x u)) /\
  (forall x, length x = nx -> XN x -> XN' (T x)) /\
  (forall x u, length x = nx -> length u = nu -> dot (T x) (mv Q' (T x)) + dot (G u) (mv Rm' (G u)) <= c * (dot x (mv Q x) + dot u (mv Rm u))) /\
  (forall x, length x = nx -> dot (T x) (mv P' (T x)) <= c * dot x (mv P x)).
