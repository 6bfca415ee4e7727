(** * PlotThms: what the plots show (C71, C72), proofs *)
From Coq Require Import ZArith Classical.
From Verif Require Import Arr ArrFacts Spec SpecPlot Numpy Pnnls Polyhedron Dynamics Mpqp Controllers Projection Plots.

Lemma dbind_ok {A B} l (a : A) (k : A -> dw B) l' r : k a = (l', r) -> dbind (l, Ok a) k = (l ++ l', r).
Proof. intros H. unfold dbind. cbn. rewrite H. reflexivity. Qed.
Lemma dfor_ok {A} (f : A -> dw Datatypes.unit) (g : A -> list cmd) l : (forall a, In a l -> f a = (g a, Ok tt)) -> dfor l f = (flat_map g l, Ok tt).
Proof.
  induction l as [|a l IH]; intros H; [reflexivity|]. cbn [dfor flat_map]. rewrite (H a) by (left; reflexivity). apply dbind_ok. apply IH. intros b Hb. apply H. right. exact Hb.
Qed.
Lemma mapM_gets (x : list vec) i n : (forall k, (k < n)%nat -> (k < length x)%nat /\ (i < length (nth k x []))%nat) -> forall s c, (s + c <= n)%nat -> mapM (fun k => gets x k i) (seq s c) = Ok (map (fun k => nth i (nth k x []) 0) (seq s c)).
Proof.
  intros H s c. revert s. induction c as [|c IH]; intros s Hs; [reflexivity|]. cbn [seq mapM map]. destruct (H s ltac:(lia)) as (H1 & H2). unfold gets at 1, getl. rewrite (nth_error_nth' x [] H1). cbn [bind]. unfold getv. apply Nat.ltb_lt in H2. rewrite H2. cbn [bind]. rewrite IH by lia. reflexivity.
Qed.
Lemma gets_ok x t i : (t < length x)%nat -> (i < length (nth t x []))%nat -> gets x t i = Ok (nth i (nth t x []) 0).
Proof. intros H1 H2. unfold gets, getl. rewrite (nth_error_nth' x [] H1). cbn [bind]. unfold getv. apply Nat.ltb_lt in H2. rewrite H2. reflexivity. Qed.
Lemma getv_ok v i : (i < length v)%nat -> getv v i = Ok (nth i v 0).
Proof. intros H. unfold getv. apply Nat.ltb_lt in H. rewrite H. reflexivity. Qed.
Lemma all_len_nth (x : list vec) n k : Forall (fun v => length v = n) x -> (k < length x)%nat -> length (nth k x []) = n.
Proof. intros H Hk. rewrite Forall_forall in H. apply H. apply nth_In, Hk. Qed.
Lemma linspace_length a b n : length (linspace a b n) = n.
Proof. unfold linspace. destruct n as [|[|n]]; [reflexivity|reflexivity|]. rewrite map_length, seq_length. reflexivity. Qed.
Lemma linspace_nth a b n k : (k < n)%nat -> (2 <= n)%nat -> nth k (linspace a b n) 0 = a + INR k * ((b - a) / INR (n - 1)).
Proof.
  intros Hk Hn. unfold linspace. destruct n as [|[|n]]; [lia|lia|]. rewrite (nth_indep _ 0 ((fun i => a + INR i * ((b - a) / INR (S (S n) - 1))) 0%nat)) by (rewrite map_length, seq_length; exact Hk).
  rewrite (map_nth (fun i => a + INR i * ((b - a) / INR (S (S n) - 1)))). rewrite seq_nth by exact Hk. reflexivity.
Qed.
Lemma time_nth N h k : (k <= N)%nat -> nth k (linspace 0 (INR N * h) (N + 1)) 0 = INR k * h.
Proof.
  intros Hk. destruct N as [|N]; [replace k with 0%nat by lia; cbn; lra|]. rewrite linspace_nth by lia. replace (S N + 1 - 1)%nat with (S N) by lia. assert (INR (S N) <> 0) by (apply not_0_INR; lia). field. assumption.
Qed.
Lemma flat_single {A B} (f : A -> B) l : flat_map (fun a => [f a]) l = map f l.
Proof. induction l as [|a l IH]; [reflexivity|]. cbn. rewrite IH. reflexivity. Qed.
(** the commands after the curve of component i *)
Definition bound_lines (ts : vec) (i : nat) (bounds : option (list vec)) : list cmd := match bounds with None => [] | Some bs => map (fun b => Steps ts (repeat (nth i b 0) (length ts))) bs end.
Definition legend_cmd (i : nat) (bounds : option (list vec)) : list cmd := if Nat.eqb i 0 then [Legend (match bounds with None => false | _ => true end)] else [].
Lemma plot_rest_ok ts T i bounds n : (i < n)%nat -> (forall bs, bounds = Some bs -> bs <> [] /\ Forall (fun b => length b = n) bs) ->
  plot_rest ts T i bounds = (bound_lines ts i bounds ++ [YLabel (i + 1); XLim 0 T] ++ legend_cmd i bounds, Ok tt).
Proof.
  intros Hi HB. unfold plot_rest. assert (E1 : plot_bounds ts i bounds = (bound_lines ts i bounds, Ok tt)).
  { destruct bounds as [bs|]; [|reflexivity]. destruct (HB bs eq_refl) as (_ & HF). unfold plot_bounds, bound_lines. rewrite (dfor_ok _ (fun b => [Steps ts (repeat (nth i b 0) (length ts))])).
    - rewrite flat_single. reflexivity.
    - intros b Hb. rewrite Forall_forall in HF. rewrite (getv_ok b i) by (rewrite (HF b Hb); exact Hi). reflexivity. }
  rewrite E1. apply dbind_ok. assert (E2 : plot_legend i bounds = (legend_cmd i bounds, Ok tt)).
  { unfold plot_legend, legend_cmd. destruct (Nat.eqb i 0); [|reflexivity]. destruct bounds as [[|b bs]|]; [destruct (HB [] eq_refl); congruence|reflexivity|reflexivity]. }
  rewrite E2. reflexivity.
Qed.
(** a panel: subplot, curve, bounds and decorations *)
Lemma panels_ok n (curve : nat -> cmd) (data : nat -> res vec) ts T bounds (mk : vec -> cmd) : (forall i, (i < n)%nat -> exists ys, data i = Ok ys /\ curve i = mk ys) ->
  (forall bs, bounds = Some bs -> bs <> [] /\ Forall (fun b => length b = n) bs) ->
  dfor (seq 0 n) (fun i => emit (Subplot n (i + 1)) ;^ let^ ys := dlift (data i) in emit (mk ys) ;^ plot_rest ts T i bounds) =
  (flat_map (fun i => Subplot n (i + 1) :: curve i :: bound_lines ts i bounds ++ [YLabel (i + 1); XLim 0 T] ++ legend_cmd i bounds) (seq 0 n), Ok tt).
Proof.
  intros HD HB. apply dfor_ok. intros i Hi. apply in_seq in Hi. destruct (HD i ltac:(lia)) as (ys & E & Ec). rewrite E, Ec. unfold emit, dlift, dbind at 1. cbn [snd fst]. rewrite (plot_rest_ok ts T i bounds n ltac:(lia) HB). reflexivity.
Qed.
Lemma nth_repeat_lt {A} (a d : A) n i : (i < n)%nat -> nth i (repeat a n) d = a.
Proof. revert i. induction n as [|n IH]; intros [|i] Hi; try lia; [reflexivity|apply IH; lia]. Qed.
Lemma step_const ts v s w : step_graph ts (repeat v (length ts)) s w -> w = v.
Proof. intros (k & Hk & _ & ->). rewrite nth_repeat_lt by exact Hk. reflexivity. Qed.

Lemma step_in N h ys s v : 0 < h -> step_graph (linspace 0 (INR N * h) (N + 1)) ys s v <-> exists k, (k < N)%nat /\ INR k * h < s <= INR (S k) * h /\ v = nth (S k) ys 0.
Proof.
  intros Hh. unfold step_graph. rewrite linspace_length. split; intros (k & H1 & H2 & H3); exists k.
  - rewrite !time_nth in H2 by lia. split; [lia|]. split; assumption.
  - rewrite !time_nth by lia. split; [lia|]. split; assumption.
Qed.
Lemma slot_unique h s k k' : 0 < h -> INR k * h < s <= INR (S k) * h -> INR k' * h < s <= INR (S k') * h -> k = k'.
Proof.
  intros Hh H1 H2. assert (G : forall a b, INR a * h < s -> s <= INR (S b) * h -> (a <= b)%nat). { intros a b Ha Hb. assert (INR a < INR (S b)) by (apply (Rmult_lt_reg_r h); lra). apply INR_lt in H. lia. }
  apply Nat.le_antisymm; apply G; tauto.
Qed.
Lemma slot_exists N h s : 0 < h -> 0 < s <= INR N * h -> exists k, (k < N)%nat /\ INR k * h < s <= INR (S k) * h.
Proof.
  intros Hh. induction N as [|N IH]; intros Hs; [cbn in Hs; lra|]. destruct (Rle_lt_dec s (INR N * h)) as [G|G].
  - destruct IH as (k & Hk & Hk'); [lra|]. exists k. split; [lia|exact Hk'].
  - exists N. split; [lia|lra].
Qed.
Lemma step_const_iff N h b s v : 0 < h -> 0 < s <= INR N * h -> (step_graph (linspace 0 (INR N * h) (N + 1)) (repeat b (length (linspace 0 (INR N * h) (N + 1)))) s v <-> v = b).
Proof.
  intros Hh Hs. split; [apply step_const|]. intros ->. apply step_in; [exact Hh|]. destruct (slot_exists N h s Hh Hs) as (k & Hk & Hs'). exists k. split; [exact Hk|]. split; [exact Hs'|]. rewrite linspace_length, nth_repeat_lt by lia. reflexivity.
Qed.
(** the bounds drawn are constant *)
Definition bounds_of (o : option (list vec)) : list vec := match o with None => [] | Some bs => bs end.
Definition good_bounds (o : option (list vec)) (n : nat) : Prop := forall bs, o = Some bs -> bs <> [] /\ Forall (fun b => length b = n) bs.

(*@ Theorem C71_inputs : plot_input_sequence makes one panel for each component, in order; the step function drawn in panel i has, on (k h, (k+1) h], the value of component i of u(k) (zero-order hold) and is drawn on (0, N h] only; each bound gives a constant line at its component i. *)
Lemma plot_inputs u h bounds nu : Forall (fun v => length v = nu) u -> u <> [] -> 0 < h -> good_bounds bounds nu ->
  exists panel, plot_input_sequence u h bounds = (flat_map panel (seq 0 nu) ++ [TimeLabel], Ok tt) /\
  forall i, (i < nu)%nat -> exists ts ys bl, 
    panel i = Subplot nu (i + 1) :: Steps ts ys :: map (Steps ts) bl ++ [YLabel (i + 1); XLim 0 (INR (length u) * h)] ++ (if Nat.eqb i 0 then [Legend (match bounds with None => false | _ => true end)] else []) /\
    (forall k s v, (k < length u)%nat -> INR k * h < s <= INR (S k) * h -> (step_graph ts ys s v <-> v = nth i (nth k u []) 0)) /\
    (forall s v, step_graph ts ys s v -> 0 < s <= INR (length u) * h) /\
    Forall2 (fun b ys => forall s v, 0 < s <= INR (length u) * h -> (step_graph ts ys s v <-> v = nth i b 0)) (bounds_of bounds) bl.
Proof.
  intros HF HN Hh HB. set (N := length u). set (ts := linspace 0 (INR N * h) (N + 1)).
  set (data := fun i => map (fun k => nth i (nth k u []) 0) (seq 0 N)).
  exists (fun i => Subplot nu (i + 1) :: Steps ts (firstn 1 (data i) ++ data i) :: bound_lines ts i bounds ++ [YLabel (i + 1); XLim 0 (INR N * h)] ++ legend_cmd i bounds). split.
  - unfold plot_input_sequence. assert (E0 : getl u 0 = Ok (nth 0 u [])) by (unfold getl; destruct u; [congruence|reflexivity]). rewrite E0. unfold dlift at 1. unfold dbind at 1. cbn [snd fst app].
    assert (L0 : length (nth 0 u []) = nu) by (apply all_len_nth; [exact HF|destruct u; [congruence|cbn; lia]]). rewrite L0. fold N. fold ts.
    rewrite (panels_ok nu (fun i => Steps ts (firstn 1 (data i) ++ data i)) (fun i => mapM (fun k => gets u k i) (seq 0 N)) ts (INR N * h) bounds (fun us => Steps ts (firstn 1 us ++ us))); [reflexivity| |exact HB].
    intros i Hi. exists (data i). split; [|reflexivity]. apply (mapM_gets u i N); [|lia]. intros k Hk. split; [exact Hk|]. rewrite (all_len_nth u nu k HF Hk). exact Hi.
  - intros i Hi. exists ts, (firstn 1 (data i) ++ data i), (map (fun b => repeat (nth i b 0) (length ts)) (bounds_of bounds)). split; [|split; [|split]].
    + unfold bound_lines, bounds_of, legend_cmd. rewrite map_map. destruct bounds; reflexivity.
    + assert (LD : length (data i) = N) by (unfold data; rewrite map_length, seq_length; reflexivity).
      assert (ND : forall k, (k < N)%nat -> nth (S k) (firstn 1 (data i) ++ data i) 0 = nth i (nth k u []) 0).
      { intros k Hk. rewrite app_nth2; rewrite firstn_length, LD; [|lia]. replace (S k - Nat.min 1 N)%nat with k by lia. unfold data. rewrite (nth_indep _ 0 ((fun k => nth i (nth k u []) 0) 0%nat)) by (rewrite map_length, seq_length; exact Hk). rewrite (map_nth (fun k => nth i (nth k u []) 0)), seq_nth by exact Hk. reflexivity. }
      intros k s v Hk Hs. unfold ts. rewrite step_in by exact Hh. split.
      * intros (k' & Hk' & Hs' & ->). rewrite (slot_unique h s k' k Hh Hs' Hs). apply ND, Hk.
      * intros ->. exists k. split; [exact Hk|]. split; [exact Hs|]. symmetry. apply ND, Hk.
    + intros s v H. unfold ts in H. apply step_in in H; [|exact Hh]. destruct H as (k & Hk & Hs & _). split.
      * eapply Rle_lt_trans; [|apply Hs]. apply Rmult_le_pos; [apply pos_INR|lra].
      * eapply Rle_trans; [apply Hs|]. apply Rmult_le_compat_r; [lra|]. apply le_INR. lia.
    + fold N. induction (bounds_of bounds) as [|b bs IH]; [constructor|]. cbn [map]. constructor; [|exact IH]. intros s v Hs. apply step_const_iff; assumption.
Qed.
Lemma polyline_in N h y s v : length y = (N + 1)%nat -> on_polyline (linspace 0 (INR N * h) (N + 1)) y s v <-> exists k l, (k < N)%nat /\ 0 <= l <= 1 /\ s = (INR k + l) * h /\ v = (1 - l) * nth k y 0 + l * nth (S k) y 0.
Proof.
  intros Ly. unfold on_polyline. rewrite linspace_length. split; intros (k & l & H1 & H2 & H3 & H4); exists k, l.
  - rewrite !time_nth in H3 by lia. split; [lia|]. split; [exact H2|]. split; [|exact H4]. rewrite H3, S_INR. ring.
  - rewrite !time_nth by lia. split; [lia|]. split; [exact H2|]. split; [|exact H4]. rewrite H3, S_INR. ring.
Qed.
(** the panels of a sampled trajectory y(0), ..., y(N) *)
Lemma plot_curves (y : list vec) h bounds n N : length y = (N + 1)%nat -> Forall (fun v => length v = n) y -> 0 < h -> good_bounds bounds n ->
  exists panel, (dfor (seq 0 n) (fun i => emit (Subplot n (i + 1)) ;^ let^ ys := dlift (mapM (fun k => gets y k i) (seq 0 (N + 1))) in emit (Line (linspace 0 (INR N * h) (N + 1)) ys false) ;^ plot_rest (linspace 0 (INR N * h) (N + 1)) (INR N * h) i bounds)) ;^ emit TimeLabel =
     (flat_map panel (seq 0 n) ++ [TimeLabel], Ok tt) /\
  forall i, (i < n)%nat -> exists ts ys bl,
    panel i = Subplot n (i + 1) :: Line ts ys false :: map (Steps ts) bl ++ [YLabel (i + 1); XLim 0 (INR N * h)] ++ (if Nat.eqb i 0 then [Legend (match bounds with None => false | _ => true end)] else []) /\
    (forall s v, on_polyline ts ys s v <-> exists k l, (k < N)%nat /\ 0 <= l <= 1 /\ s = (INR k + l) * h /\ v = (1 - l) * nth i (nth k y []) 0 + l * nth i (nth (S k) y []) 0) /\
    Forall2 (fun b ys => forall s v, 0 < s <= INR N * h -> (step_graph ts ys s v <-> v = nth i b 0)) (bounds_of bounds) bl.
Proof.
  intros LN HF Hh HB. set (ts := linspace 0 (INR N * h) (N + 1)).
  set (data := fun i => map (fun k => nth i (nth k y []) 0) (seq 0 (N + 1))).
  exists (fun i => Subplot n (i + 1) :: Line ts (data i) false :: bound_lines ts i bounds ++ [YLabel (i + 1); XLim 0 (INR N * h)] ++ legend_cmd i bounds). split.
  - rewrite (panels_ok n (fun i => Line ts (data i) false) (fun i => mapM (fun k => gets y k i) (seq 0 (N + 1))) ts (INR N * h) bounds (fun us => Line ts us false)); [reflexivity| |exact HB].
    intros i Hi. exists (data i). split; [|reflexivity]. apply (mapM_gets y i (N + 1)); [|lia]. intros k Hk. split; [lia|]. rewrite (all_len_nth y n k HF) by lia. exact Hi.
  - intros i Hi. exists ts, (data i), (map (fun b => repeat (nth i b 0) (length ts)) (bounds_of bounds)). split; [|split].
    + unfold bound_lines, bounds_of, legend_cmd. rewrite map_map. destruct bounds; reflexivity.
    + assert (LD : length (data i) = (N + 1)%nat) by (unfold data; rewrite map_length, seq_length; reflexivity).
      assert (ND : forall k, (k < N + 1)%nat -> nth k (data i) 0 = nth i (nth k y []) 0).
      { intros k Hk. unfold data. rewrite (nth_indep _ 0 ((fun k => nth i (nth k y []) 0) 0%nat)) by (rewrite map_length, seq_length; exact Hk). rewrite (map_nth (fun k => nth i (nth k y []) 0)), seq_nth by exact Hk. reflexivity. }
      intros s v. unfold ts. rewrite polyline_in by exact LD. split; intros (k & l & H1 & H2 & H3 & H4); exists k, l; (split; [exact H1|]; split; [exact H2|]; split; [exact H3|]); rewrite H4, !ND by lia; reflexivity.
    + induction (bounds_of bounds) as [|b bs IH]; [constructor|]. cbn [map]. constructor; [|exact IH]. intros s v Hs. apply step_const_iff; assumption.
Qed.
(*@ Theorem C71_states : plot_state_trajectory makes one panel for each component; the curve of panel i joins the points (k h, x_i(k)) by segments, in order. *)
Lemma plot_states x h bounds nx : Forall (fun v => length v = nx) x -> x <> [] -> 0 < h -> good_bounds bounds nx ->
  exists panel, plot_state_trajectory x h bounds = (flat_map panel (seq 0 nx) ++ [TimeLabel], Ok tt) /\
  forall i, (i < nx)%nat -> exists ts ys bl,
    panel i = Subplot nx (i + 1) :: Line ts ys false :: map (Steps ts) bl ++ [YLabel (i + 1); XLim 0 (INR (length x - 1) * h)] ++ (if Nat.eqb i 0 then [Legend (match bounds with None => false | _ => true end)] else []) /\
    (forall s v, on_polyline ts ys s v <-> exists k l, (S k < length x)%nat /\ 0 <= l <= 1 /\ s = (INR k + l) * h /\ v = (1 - l) * nth i (nth k x []) 0 + l * nth i (nth (S k) x []) 0) /\
    Forall2 (fun b ys => forall s v, 0 < s <= INR (length x - 1) * h -> (step_graph ts ys s v <-> v = nth i b 0)) (bounds_of bounds) bl.
Proof.
  intros HF HN Hh HB. set (N := (length x - 1)%nat). assert (LN : length x = (N + 1)%nat) by (unfold N; destruct x; [congruence|cbn; lia]).
  destruct (plot_curves x h bounds nx N LN HF Hh HB) as (panel & E & H). exists panel. split.
  - unfold plot_state_trajectory. assert (E0 : getl x 0 = Ok (nth 0 x [])) by (unfold getl; destruct x; [congruence|reflexivity]). rewrite E0. unfold dlift at 1. unfold dbind at 1. cbn [snd fst app].
    rewrite (all_len_nth x nx 0 HF) by lia. fold N. rewrite E. reflexivity.
  - intros i Hi. destruct (H i Hi) as (ts & ys & bl & P1 & P2 & P3). exists ts, ys, bl. split; [exact P1|]. split; [|exact P3]. intros s v. rewrite P2. split; intros (k & l & H1 & H2); exists k, l; (split; [lia|exact H2]).
Qed.
(*@ Theorem C71_outputs : plot_output_trajectory shows in the same way the components of C x(k); bounds are compared with the output. *)
Lemma plot_outputs C x h bounds ny nx : shape C ny nx -> Forall (fun v => length v = nx) x -> x <> [] -> 0 < h -> good_bounds bounds ny ->
  exists panel, plot_output_trajectory C x h bounds = (flat_map panel (seq 0 ny) ++ [TimeLabel], Ok tt) /\
  forall i, (i < ny)%nat -> exists ts ys bl,
    panel i = Subplot ny (i + 1) :: Line ts ys false :: map (Steps ts) bl ++ [YLabel (i + 1); XLim 0 (INR (length x - 1) * h)] ++ (if Nat.eqb i 0 then [Legend (match bounds with None => false | _ => true end)] else []) /\
    (forall s v, on_polyline ts ys s v <-> exists k l, (S k < length x)%nat /\ 0 <= l <= 1 /\ s = (INR k + l) * h /\ v = (1 - l) * dot (row C i) (nth k x []) + l * dot (row C i) (nth (S k) x [])) /\
    Forall2 (fun b ys => forall s v, 0 < s <= INR (length x - 1) * h -> (step_graph ts ys s v <-> v = nth i b 0)) (bounds_of bounds) bl.
Proof.
  intros HC HF HN Hh HB. assert (LC : length (rows C) = ny) by apply HC. set (N := (length x - 1)%nat). assert (LN : length x = (N + 1)%nat) by (unfold N; destruct x; [congruence|cbn; lia]).
  assert (EY : mapM (np_mv C) x = Ok (map (mv C) x)). { clear -HF HC. induction HF as [|v x Lv HF IH]; [reflexivity|]. cbn [mapM map]. unfold np_mv at 1. replace (ncols C) with nx by (symmetry; apply HC). rewrite Lv, Nat.eqb_refl. cbn [bind]. rewrite IH. reflexivity. }
  assert (LY : length (map (mv C) x) = (N + 1)%nat) by (rewrite map_length; exact LN).
  assert (FY : Forall (fun v => length v = ny) (map (mv C) x)) by (apply Forall_forall; intros v Hv; apply in_map_iff in Hv; destruct Hv as (w & <- & _); rewrite mv_length; exact LC).
  destruct (plot_curves (map (mv C) x) h bounds ny N LY FY Hh HB) as (panel & E & H). exists panel. split.
  - unfold plot_output_trajectory. rewrite EY. unfold dlift at 1. unfold dbind at 1. cbn [snd fst app]. unfold nrows. rewrite LC, LN. replace (Z.of_nat (N + 1) - 1)%Z with (Z.of_nat N) by lia. rewrite <- INR_IZR_INZ. rewrite E. reflexivity.
  - intros i Hi. destruct (H i Hi) as (ts & ys & bl & P1 & P2 & P3). exists ts, ys, bl. split; [exact P1|]. split; [|exact P3].
    assert (NY : forall k, (k < length x)%nat -> nth i (nth k (map (mv C) x) []) 0 = dot (row C i) (nth k x [])).
    { intros k Hk. rewrite (nth_indep _ [] (mv C [])) by (rewrite map_length; exact Hk). rewrite map_nth, nth_mv by lia. reflexivity. }
    intros s v. rewrite P2. split; intros (k & l & H1 & H2 & H3 & H4); exists k, l; (split; [lia|]; split; [exact H2|]; split; [exact H3|]); rewrite H4, !NY by lia; reflexivity.
Qed.
(*@ Theorem C71_errors : What the trajectory plots refuse: no inputs or no states (IndexError), a number of dimensions other than two (ValueError), and an empty list of bounds, which fails at the legend (UnboundLocalError, a NameError) after the first curve has been drawn. *)
Lemma plot_errors : (forall h b, plot_input_sequence [] h b = ([], Err IndexError)) /\ (forall h b, plot_state_trajectory [] h b = ([], Err IndexError)) /\
  (forall x dim text, length dim <> 2%nat -> plot_state_space_trajectory x dim text = ([], Err ValueError)) /\
  (forall d0 d1 text, plot_state_space_trajectory [] [d0; d1] text = ([], Err IndexError)) /\
  (forall u h nu, Forall (fun v => length v = S nu) u -> u <> [] -> snd (plot_input_sequence u h (Some [])) = Err NameError /\ exists ts ys, In (Steps ts ys) (fst (plot_input_sequence u h (Some [])))).
Proof.
  split; [reflexivity|]. split; [reflexivity|]. split; [|split; [reflexivity|]].
  - intros x [|d0 [|d1 [|d2 dim]]] text Hd; try reflexivity. cbn in Hd. lia.
  - intros u h nu HF HN. assert (E : exists ts ys a b, plot_input_sequence u h (Some []) = ([Subplot (S nu) 1; Steps ts ys; YLabel a; XLim 0 b], Err NameError)).
    { unfold plot_input_sequence. assert (E0 : getl u 0 = Ok (nth 0 u [])) by (unfold getl; destruct u; [congruence|reflexivity]). rewrite E0.
      assert (L0 : length (nth 0 u []) = S nu) by (apply all_len_nth; [exact HF|destruct u; [congruence|cbn; lia]]).
      assert (EM : mapM (fun k => gets u k 0) (seq 0 (length u)) = Ok (map (fun k => nth 0 (nth k u []) 0) (seq 0 (length u)))) by (apply (mapM_gets u 0 (length u)); [|lia]; intros k Hk; split; [exact Hk|rewrite (all_len_nth u _ k HF Hk); lia]).
      unfold dlift at 1. unfold dbind at 1. cbn [snd fst app]. rewrite L0. change (seq 0 (S nu)) with (0%nat :: seq 1 nu). cbn [dfor]. rewrite EM. eexists _, _, _, _. reflexivity. }
    destruct E as (ts & ys & a & b & ->). split; [reflexivity|]. exists ts, ys. right. left. reflexivity.
Qed.
Definition comp (x : list vec) (d : nat) : vec := map (fun v => nth d v 0) x.
Lemma nth_comp x d t : (t < length x)%nat -> nth t (comp x d) 0 = nth d (nth t x []) 0.
Proof. intros Ht. unfold comp. rewrite (nth_indep _ 0 (nth d [] 0)) by (rewrite map_length; exact Ht). apply (map_nth (fun v => nth d v 0)). Qed.
(*@ Theorem C71_state_space : plot_state_space_trajectory draws exactly the broken line through the points (x_d0(t), x_d1(t)) (the first segment twice, once with the label), the initial state, and, on request, for every t the text x(t) at (x_0(t), x_1(t)). *)
Lemma plot_state_space x d0 d1 text n : Forall (fun v => length v = n) x -> x <> [] -> (d0 < n)%nat -> (d1 < n)%nat -> (text = true -> (2 <= n)%nat) ->
  exists cmds, plot_state_space_trajectory x [d0; d1] text = (cmds, Ok tt) /\
    (forall a b, (exists xs ys lab, In (Line xs ys lab) cmds /\ on_polyline xs ys a b) <-> on_polyline (map (fun v => nth d0 v 0) x) (map (fun v => nth d1 v 0) x) a b) /\
    (forall xs ys, In (Line xs ys true) cmds -> (2 <= length x)%nat /\ xs = [nth d0 (nth 0 x []) 0; nth d0 (nth 1 x []) 0] /\ ys = [nth d1 (nth 0 x []) 0; nth d1 (nth 1 x []) 0]) /\
    (forall a b, In (Scatter a b) cmds <-> a = nth d0 (nth 0 x []) 0 /\ b = nth d1 (nth 0 x []) 0) /\
    (forall a b t, In (Text a b t) cmds <-> text = true /\ (t < length x)%nat /\ a = nth 0 (nth t x []) 0 /\ b = nth 1 (nth t x []) 0) /\
    (forall i, In (XLabel i) cmds <-> i = (d0 + 1)%nat) /\ (forall i, In (YLabel i) cmds <-> i = (d1 + 1)%nat).
Proof.
  intros HF HN H0 H1 HT. set (N := (length x - 1)%nat). assert (LN : length x = (N + 1)%nat) by (unfold N; destruct x; [congruence|cbn; lia]).
  set (P := fun t d => nth d (nth t x []) 0). set (seg := fun t lab => Line [P t d0; P (t + 1)%nat d0] [P t d1; P (t + 1)%nat d1] lab).
  set (lines := fun t => (if Nat.eqb t 0 then [seg 0%nat true] else []) ++ [seg t false]). set (texts := fun t => if text then [Text (P t 0%nat) (P t 1%nat) t] else []).
  set (rest := [Scatter (P 0%nat d0) (P 0%nat d1); XLabel (d0 + 1); YLabel (d1 + 1)]).
  assert (G : forall t d, (t < length x)%nat -> (d < n)%nat -> gets x t d = Ok (P t d)) by (intros t d Ht Hd; apply gets_ok; [exact Ht|rewrite (all_len_nth x n t HF Ht); exact Hd]).
  exists (flat_map lines (seq 0 N) ++ flat_map texts (seq 0 (length x)) ++ rest). split.
  { unfold plot_state_space_trajectory. fold N. erewrite (dfor_ok _ lines); [|].
    - apply dbind_ok. erewrite (dfor_ok _ texts); [|].
      + apply dbind_ok. rewrite !G by lia. reflexivity.
      + intros t Ht. apply in_seq in Ht. unfold texts. destruct text; [|reflexivity]. specialize (HT eq_refl). rewrite !G by lia. reflexivity.
    - intros t Ht. apply in_seq in Ht. unfold lines. destruct (Nat.eqb_spec t 0) as [->|Nt].
      + rewrite !G by lia. reflexivity.
      + rewrite !G by lia. reflexivity. }
  assert (IL : forall c, In c (flat_map lines (seq 0 N)) <-> (0 < N /\ c = seg 0 true)%nat \/ exists t, (t < N)%nat /\ c = seg t false).
  { intros c. rewrite in_flat_map. split.
    - intros (t & Ht & Hc). apply in_seq in Ht. unfold lines in Hc. apply in_app_iff in Hc. destruct Hc as [Hc|[<-|[]]]; [|right; exists t; split; [lia|reflexivity]]. destruct (Nat.eqb_spec t 0); [|destruct Hc]. destruct Hc as [<-|[]]. left. split; [lia|reflexivity].
    - intros [(Hn & ->)|(t & Ht & ->)].
      + exists 0%nat. split; [apply in_seq; lia|]. left. reflexivity.
      + exists t. split; [apply in_seq; lia|]. unfold lines. apply in_app_iff. right. left. reflexivity. }
  assert (IT : forall c, In c (flat_map texts (seq 0 (length x))) <-> text = true /\ exists t, (t < length x)%nat /\ c = Text (P t 0%nat) (P t 1%nat) t).
  { intros c. rewrite in_flat_map. unfold texts. destruct text; split.
    - intros (t & Ht & [<-|[]]). apply in_seq in Ht. split; [reflexivity|]. exists t. split; [lia|reflexivity].
    - intros (_ & t & Ht & ->). exists t. split; [apply in_seq; lia|left; reflexivity].
    - intros (t & _ & []).
    - intros (Hd & _). discriminate Hd. }
  assert (IN : forall c, In c (flat_map lines (seq 0 N) ++ flat_map texts (seq 0 (length x)) ++ rest) <-> ((0 < N /\ c = seg 0 true)%nat \/ exists t, (t < N)%nat /\ c = seg t false) \/ (text = true /\ exists t, (t < length x)%nat /\ c = Text (P t 0%nat) (P t 1%nat) t) \/ In c rest).
  { intros c. rewrite !in_app_iff, IL, IT. reflexivity. }
  assert (NC : forall t d, (t < length x)%nat -> nth t (map (fun v => nth d v 0) x) 0 = P t d) by (intros t d Ht; apply nth_comp, Ht).
  assert (SL : forall t lab a b, (t < N)%nat -> (match seg t lab with Line xs ys _ => on_polyline xs ys a b | _ => False end) <-> exists l, 0 <= l <= 1 /\ a = (1 - l) * P t d0 + l * P (S t) d0 /\ b = (1 - l) * P t d1 + l * P (S t) d1).
  { intros t lab a b Ht. unfold seg. rewrite Nat.add_1_r. split.
    - intros (k & l & Hk & Hl & Ha & Hb). cbn [length] in Hk. replace k with 0%nat in * by lia. exists l. split; [exact Hl|]. split; assumption.
    - intros (l & Hl & Ha & Hb). exists 0%nat, l. split; [cbn; lia|]. split; [exact Hl|]. split; assumption. }
  split; [|split; [|split; [|split; [|split]]]].
  - intros a b. split.
    + intros (xs & ys & lab & Hin & Hp). apply IN in Hin. destruct Hin as [Hin|[(_ & t & _ & Hin)|[Hin|[Hin|[Hin|[]]]]]]; try discriminate.
      assert (exists t, (t < N)%nat /\ Line xs ys lab = seg t lab) as (t & Ht & E).
      { destruct Hin as [(Hn & E)|(t & Ht & E)]; [exists 0%nat|exists t]; (split; [assumption|]); unfold seg in E |- *; injection E as -> -> ->; reflexivity. }
      assert (Hs : match seg t lab with Line xs ys _ => on_polyline xs ys a b | _ => False end) by (rewrite <- E; exact Hp). apply SL in Hs; [|exact Ht]. destruct Hs as (l & Hl & Ha & Hb).
      exists t, l. rewrite map_length. split; [lia|]. split; [exact Hl|]. rewrite !NC by lia. split; assumption.
    + intros (k & l & Hk & Hl & Ha & Hb). rewrite map_length in Hk. rewrite !NC in Ha, Hb by lia. exists [P k d0; P (k + 1)%nat d0], [P k d1; P (k + 1)%nat d1], false. split.
      * apply IN. left. right. exists k. split; [lia|reflexivity].
      * apply (SL k false a b ltac:(lia)). exists l. split; [exact Hl|]. split; assumption.
  - intros xs ys Hin. apply IN in Hin. destruct Hin as [[(Hn & E)|(t & _ & E)]|[(_ & t & _ & Hin)|[Hin|[Hin|[Hin|[]]]]]]; try discriminate. injection E as -> ->. split; [lia|]. split; reflexivity.
  - intros a b. rewrite IN. split.
    + intros [[(_ & E)|(t & _ & E)]|[(_ & t & _ & E)|[E|[E|[E|[]]]]]]; try discriminate. injection E as <- <-. split; reflexivity.
    + intros (-> & ->). right. right. left. reflexivity.
  - intros a b t. rewrite IN. split.
    + intros [[(_ & E)|(t' & _ & E)]|[(Et & t' & Ht & E)|[E|[E|[E|[]]]]]]; try discriminate. injection E as -> -> ->. split; [exact Et|]. split; [exact Ht|]. split; reflexivity.
    + intros (Et & Ht & -> & ->). right. left. split; [exact Et|]. exists t. split; [exact Ht|reflexivity].
  - intros i. rewrite IN. split.
    + intros [[(_ & E)|(t & _ & E)]|[(_ & t & _ & E)|[E|[E|[E|[]]]]]]; try discriminate. injection E as <-. reflexivity.
    + intros ->. right. right. right. left. reflexivity.
  - intros i. rewrite IN. split.
    + intros [[(_ & E)|(t & _ & E)]|[(_ & t & _ & E)|[E|[E|[E|[]]]]]]; try discriminate. injection E as <-. reflexivity.
    + intros ->. right. right. right. right. left. reflexivity.
Qed.
(*@ Theorem C71_text_refuted : So the texts are not at the points they name when other dimensions than [0, 1] are plotted: the state (1, 2, 3) plotted in dimensions 1, 2 is drawn at (2, 3) and its text put at (1, 2). *)
Lemma plot_text_refuted : exists x d0 d1, Forall (fun v => length v = 3%nat) x /\ x <> [] /\ (d0 < 3)%nat /\ (d1 < 3)%nat /\
  snd (plot_state_space_trajectory x [d0; d1] true) = Ok tt /\
  exists a b, In (Text a b 0) (fst (plot_state_space_trajectory x [d0; d1] true)) /\ (a, b) <> (nth d0 (nth 0 x []) 0, nth d1 (nth 0 x []) 0).
Proof.
  exists [[1; 2; 3]], 1%nat, 2%nat. split; [repeat constructor|]. split; [discriminate|]. split; [lia|]. split; [lia|]. split; [reflexivity|]. exists 1, 2. split; [left; reflexivity|]. cbn. intros E. injection E as E _. lra.
Qed.
(*@ Example C71_example : Two inputs of one component with one bound meet the hypotheses of C71_inputs. *)
Lemma plot_inputs_example : let u := [[3]; [5]] in Forall (fun v => length v = 1%nat) u /\ u <> [] /\ 0 < / 2 /\ good_bounds (Some [[7]]) 1 /\
  plot_input_sequence u (/ 2) (Some [[7]]) =
    ([Subplot 1 1; Steps [0; / 2; 1] [3; 3; 5]; Steps [0; / 2; 1] [7; 7; 7]; YLabel 1; XLim 0 1; Legend true; TimeLabel], Ok tt).
Proof.
  split; [repeat constructor|]. split; [discriminate|]. split; [lra|]. split; [intros bs E; injection E as <-; split; [discriminate|repeat constructor]|].
  unfold plot_input_sequence, linspace. cbn. repeat f_equal; try field; try lra.
Qed.
