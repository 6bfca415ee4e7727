(** * PropsCartNum: the property theorems of this part, restated; proofs are in CartNumThms.
    Generated by tools/gen_props.py: this file contains only statements, [exact] and Print Assumptions. *)
From Coq Require Import Lra Lia String Classical ClassicalChoice.
From Verif Require Import Arr ArrFacts Spec SpecMpc SpecProg SpecDyn SpecEig SpecRound SpecHold SpecOrigin SpecCart Numpy Dynamics DynThms ZohThms OdeThms SampThms LqrThms QpFacts SolverThms Oracle CondenseThms McaisThms Mpqp Controllers Polyhedron PolyThms CtrlThms HorizonThms DareThms NoteThms SpectralThms RoundThms RoundSimThms Walls WallThms CartDyn LocalThms Gurobi Programs Hybrid HybridThms HybridOptThms HybridLoopThms ExampleCtrl ExThms ExLoopThms Voronoi VorThms CartPole CartThms PlantThms HoldThms CartHoldThms OriginThms CartOriginThms.
From Verif Require Import CartNumThms.
Local Open Scope list_scope.

(** The cart-pole with masses and length 1, walls at 1, and gravity 10, linearized about the upright position at the angles 0 and 2 (two modes, four states), N = 4: the hypotheses of C98_cart on the model hold for an exact library, and some solver solves all the programs. At the upright position at rest the controller returns the input 0, and the motion that stays there is one of the closed loop. *)
Example C98_cart_example ridges :
  exists np W C drake, exact_np np /\ cart_setup np up_taylor 4 1 [3; 0; 10; 10] 100 0 2 2 (/ 20) /\ (exists j, (j < 2)%nat /\ 0 + INR j * ((2 - 0) / (INR 2 - 1)) = 0) /\ up_taylor (zeros 4) = (cart_A_free 1 1 1 10, cart_B 1 1, zeros 4) /\
  (forall j, (j < 4)%nat -> j <> 1%nat -> 0 < nth j [3; 0; 10; 10] 0) /\ cart_pole_pwa ridges np up_taylor 4 1 [3; 0; 10; 10] 100 0 2 2 (/ 20) = Ok W /\ sharp_gaps W 4 /\ cart_pole_controller np W 4 (/ 100) (/ 100) = Ok C /\
  (forall x, drake_solves drake C x) /\ example_feedback drake C (zeros 4) = Ok (Some [0]) /\ held_solution (cart_field 1 1 1 1 1000 10) [0] 4 (/ 20) (fun _ => zeros 4).
Proof. exact (cart_num_example ridges). Qed.
