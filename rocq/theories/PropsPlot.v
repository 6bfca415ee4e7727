(** * PropsPlot: the property theorems of this part, restated; proofs are in PlotThms.
    Generated by tools/gen_props.py: this file contains only statements, [exact] and Print Assumptions. *)
From Coq Require Import ZArith Classical.
From Verif Require Import Arr ArrFacts Spec SpecPlot Numpy Pnnls Polyhedron Dynamics Mpqp Controllers Projection Plots.
From Verif Require Import PlotThms.

(** plot_input_sequence makes one panel for each component, in order; the step function drawn in panel i has, on (k h, (k+1) h], the value of component i of u(k) (zero-order hold) and is drawn on (0, N h] only; each bound gives a constant line at its component i. *)
Theorem C71_inputs u h bounds nu :
  Forall (fun v => length v = nu) u -> u <> [] -> 0 < h -> good_bounds bounds nu ->
  exists panel, plot_input_sequence u h bounds = (flat_map panel (seq 0 nu) ++ [TimeLabel], Ok tt) /\
  forall i, (i < nu)%nat -> exists ts ys bl, 
    panel i = Subplot nu (i + 1) :: Steps ts ys :: map (Steps ts) bl ++ [YLabel (i + 1); XLim 0 (INR (length u) * h)] ++ (if Nat.eqb i 0 then [Legend (match bounds with None => false | _ => true end)] else []) /\
    (forall k s v, (k < length u)%nat -> INR k * h < s <= INR (S k) * h -> (step_graph ts ys s v <-> v = nth i (nth k u []) 0)) /\
    (forall s v, step_graph ts ys s v -> 0 < s <= INR (length u) * h) /\
    Forall2 (fun b ys => forall s v, 0 < s <= INR (length u) * h -> (step_graph ts ys s v <-> v = nth i b 0)) (bounds_of bounds) bl.
Proof. exact (plot_inputs u h bounds nu). Qed.
Print Assumptions C71_inputs.

(** plot_state_trajectory makes one panel for each component; the curve of panel i joins the points (k h, x_i(k)) by segments, in order. *)
Theorem C71_states x h bounds nx :
  Forall (fun v => length v = nx) x -> x <> [] -> 0 < h -> good_bounds bounds nx ->
  exists panel, plot_state_trajectory x h bounds = (flat_map panel (seq 0 nx) ++ [TimeLabel], Ok tt) /\
  forall i, (i < nx)%nat -> exists ts ys bl,
    panel i = Subplot nx (i + 1) :: Line ts ys false :: map (Steps ts) bl ++ [YLabel (i + 1); XLim 0 (INR (length x - 1) * h)] ++ (if Nat.eqb i 0 then [Legend (match bounds with None => false | _ => true end)] else []) /\
    (forall s v, on_polyline ts ys s v <-> exists k l, (S k < length x)%nat /\ 0 <= l <= 1 /\ s = (INR k + l) * h /\ v = (1 - l) * nth i (nth k x []) 0 + l * nth i (nth (S k) x []) 0) /\
    Forall2 (fun b ys => forall s v, 0 < s <= INR (length x - 1) * h -> (step_graph ts ys s v <-> v = nth i b 0)) (bounds_of bounds) bl.
Proof. exact (plot_states x h bounds nx). Qed.
Print Assumptions C71_states.

(** plot_output_trajectory shows in the same way the components of C x(k); bounds are compared with the output. *)
Theorem C71_outputs C x h bounds ny nx :
  shape C ny nx -> Forall (fun v => length v = nx) x -> x <> [] -> 0 < h -> good_bounds bounds ny ->
  exists panel, plot_output_trajectory C x h bounds = (flat_map panel (seq 0 ny) ++ [TimeLabel], Ok tt) /\
  forall i, (i < ny)%nat -> exists ts ys bl,
    panel i = Subplot ny (i + 1) :: Line ts ys false :: map (Steps ts) bl ++ [YLabel (i + 1); XLim 0 (INR (length x - 1) * h)] ++ (if Nat.eqb i 0 then [Legend (match bounds with None => false | _ => true end)] else []) /\
    (forall s v, on_polyline ts ys s v <-> exists k l, (S k < length x)%nat /\ 0 <= l <= 1 /\ s = (INR k + l) * h /\ v = (1 - l) * dot (row C i) (nth k x []) + l * dot (row C i) (nth (S k) x [])) /\
    Forall2 (fun b ys => forall s v, 0 < s <= INR (length x - 1) * h -> (step_graph ts ys s v <-> v = nth i b 0)) (bounds_of bounds) bl.
Proof. exact (plot_outputs C x h bounds ny nx). Qed.
Print Assumptions C71_outputs.

(** What the trajectory plots refuse: no inputs or no states (IndexError), a number of dimensions other than two (ValueError), and an empty list of bounds, which fails at the legend (UnboundLocalError, a NameError) after the first curve has been drawn. *)
Theorem C71_errors :
  (forall h b, plot_input_sequence [] h b = ([], Err IndexError)) /\ (forall h b, plot_state_trajectory [] h b = ([], Err IndexError)) /\
  (forall x dim text, length dim <> 2%nat -> plot_state_space_trajectory x dim text = ([], Err ValueError)) /\
  (forall d0 d1 text, plot_state_space_trajectory [] [d0; d1] text = ([], Err IndexError)) /\
  (forall u h nu, Forall (fun v => length v = S nu) u -> u <> [] -> snd (plot_input_sequence u h (Some [])) = Err NameError /\ exists ts ys, In (Steps ts ys) (fst (plot_input_sequence u h (Some [])))).
Proof. exact (plot_errors). Qed.
Print Assumptions C71_errors.

(** plot_state_space_trajectory draws exactly the broken line through the points (x_d0(t), x_d1(t)) (the first segment twice, once with the label), the initial state, and, on request, for every t the text x(t) at (x_0(t), x_1(t)). *)
Theorem C71_state_space x d0 d1 text n :
  Forall (fun v => length v = n) x -> x <> [] -> (d0 < n)%nat -> (d1 < n)%nat -> (text = true -> (2 <= n)%nat) ->
  exists cmds, plot_state_space_trajectory x [d0; d1] text = (cmds, Ok tt) /\
    (forall a b, (exists xs ys lab, In (Line xs ys lab) cmds /\ on_polyline xs ys a b) <-> on_polyline (map (fun v => nth d0 v 0) x) (map (fun v => nth d1 v 0) x) a b) /\
    (forall xs ys, In (Line xs ys true) cmds -> (2 <= length x)%nat /\ xs = [nth d0 (nth 0 x []) 0; nth d0 (nth 1 x []) 0] /\ ys = [nth d1 (nth 0 x []) 0; nth d1 (nth 1 x []) 0]) /\
    (forall a b, In (Scatter a b) cmds <-> a = nth d0 (nth 0 x []) 0 /\ b = nth d1 (nth 0 x []) 0) /\
    (forall a b t, In (Text a b t) cmds <-> text = true /\ (t < length x)%nat /\ a = nth 0 (nth t x []) 0 /\ b = nth 1 (nth t x []) 0) /\
    (forall i, In (XLabel i) cmds <-> i = (d0 + 1)%nat) /\ (forall i, In (YLabel i) cmds <-> i = (d1 + 1)%nat).
Proof. exact (plot_state_space x d0 d1 text n). Qed.
Print Assumptions C71_state_space.

(** So the texts are not at the points they name when other dimensions than [0, 1] are plotted: the state (1, 2, 3) plotted in dimensions 1, 2 is drawn at (2, 3) and its text put at (1, 2). *)
Theorem C71_text_refuted :
  exists x d0 d1, Forall (fun v => length v = 3%nat) x /\ x <> [] /\ (d0 < 3)%nat /\ (d1 < 3)%nat /\
  snd (plot_state_space_trajectory x [d0; d1] true) = Ok tt /\
  exists a b, In (Text a b 0) (fst (plot_state_space_trajectory x [d0; d1] true)) /\ (a, b) <> (nth d0 (nth 0 x []) 0, nth d1 (nth 0 x []) 0).
Proof. exact (plot_text_refuted). Qed.
Print Assumptions C71_text_refuted.

(** Two inputs of one component with one bound meet the hypotheses of C71_inputs. *)
Example C71_example :
  let u := [[3]; [5]] in Forall (fun v => length v = 1%nat) u /\ u <> [] /\ 0 < / 2 /\ good_bounds (Some [[7]]) 1 /\
  plot_input_sequence u (/ 2) (Some [[7]]) =
    ([Subplot 1 1; Steps [0; / 2; 1] [3; 3; 5]; Steps [0; / 2; 1] [7; 7; 7]; YLabel 1; XLim 0 1; Legend true; TimeLabel], Ok tt).
Proof. exact (plot_inputs_example). Qed.
