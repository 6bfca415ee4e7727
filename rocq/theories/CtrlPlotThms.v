(** * CtrlPlotThms: plots of the explicit controller (C73), proofs *)
From Coq Require Import ZArith Classical.
From Verif Require Import Arr ArrFacts Spec SpecVert SpecPlot Numpy Pnnls PnnlsFacts QpFacts GeomUtils Polyhedron PolyThms Oracle SolverThms NullFacts PolySolveThms PolyMore PolySetThms PolyBoundThms PolyChebThms PolyCacheThms PolyVertThms GeomThms HullOracle VertOracle VertFacts VertThms Dynamics Mpqp Controllers Projection SpecGeom ProjThms Plots PlotThms PolyPlotThms PlanarThms.

(** a polygon of R^2 whose vertices can be computed (hypotheses of C68), with caches in any valid state *)
Definition plottable (np : numpy) (p : poly) : Prop :=
  cache_ok np p /\ bounded_set (in_poly p) /\ (exists c, ball_in p c tol7) /\
  exists m, wf p m 0 2 /\ forall i, (i < m)%nat -> exists x, in_poly p x /\ dot (row (pA p) i) x < nth i (pb p) 0.
Lemma plottable_plot np hull2 p : exact_np np -> halfspaces_ok np -> plottable np p ->
  (forall V, fst (get_vertices np p) = Ok (Some V) -> hull2_ok V (hull2 V)) ->
  exists path p', poly_plot np hull2 [0; 1]%nat p = ([Patch path; XLabel 1; YLabel 2], Ok p') /\ goes_around path (in_poly p) /\
    exists a b r, fst (get_center np p') = Ok (Some [a; b]) /\ largest_ball p [a; b] r.
Proof.
  intros Hnp Hhs (CO & B & HB & m & W & HI) HK. destruct (vertices_coh np p CO) as (EF & FF & CF).
  assert (W' : wf (fresh p) m 0 2) by exact W. assert (GE : good_eqs (fresh p) 0 2) by (left; reflexivity).
  destruct (polytope_vertices np (fresh p) m 0 2 Hnp Hhs W' GE ltac:(lia) eq_refl B HB HI) as (V & p1 & EV & HV & HH).
  assert (E1 : fst (get_vertices np p) = Ok (Some V)) by (rewrite EF, EV; reflexivity). specialize (HK V E1).
  assert (F : Forall (fun v => length v = 2%nat) V). { apply Forall_forall. intros v Hv. apply HV in Hv. destruct Hv as ((Lv & _) & _). rewrite Lv. apply W. }
  assert (EP : map (pk 0 1) V = V). { clear -F. induction F as [|v V Lv F IH]; [reflexivity|]. cbn [map]. rewrite IH. f_equal. destruct v as [|a [|b [|]]]; try discriminate Lv. reflexivity. }
  assert (NV : V <> []). { intros ->. destruct HB as (c & Lc & Ec & Hc). assert (IP : in_poly p c). { apply Hc; auto. unfold dist2. rewrite vsub_self, dot_zeros_l. apply Rle_0_sqr. } apply HH in IP. destruct IP as (l & Ll & _ & S1 & _). destruct l; [cbn in S1; lra|discriminate Ll]. }
  destruct (plot_solid np hull2 (fresh p) m 2 0 1 Hnp Hhs W' (le_n 2) eq_refl B HB HI ltac:(lia) ltac:(lia) ltac:(lia)) as (path & p2 & EP2 & GA & _).
  { intros V2 p' E2. cbv zeta. rewrite EV in E2. injection E2 as <- _. change (map (fun v => [nth 0 v 0; nth 1 v 0]) V) with (map (pk 0 1) V). rewrite EP. exact HK. }
  assert (PG : polygon hull2 [0; 1]%nat V = Ok path). { unfold poly_plot in EP2. cbn [length Nat.eqb negb] in EP2. rewrite EV, dbind_lift in EP2. cbn beta iota in EP2. destruct (polygon hull2 [0; 1]%nat V) as [path'|e]; [|discriminate EP2]. cbn in EP2. injection EP2 as ->. reflexivity. }
  destruct (get_vertices np p) as (r, p') eqn:EG. cbn [fst snd] in *. clear EF. subst r. exists path, p'. split; [|split].
  - unfold poly_plot. cbn [length Nat.eqb negb]. rewrite EG, dbind_lift. cbn beta iota. rewrite PG. reflexivity.
  - apply (goes_around_ext path (fun y => exists x, in_poly (fresh p) x /\ y = [nth 0 x 0; nth 1 x 0])); [|exact GA]. intros y Ly. split.
    + intros (x & Hx & ->). change (in_poly p x) in Hx. assert (Lx : length x = 2%nat) by (rewrite (proj1 Hx); apply W). destruct x as [|a [|b [|]]]; try discriminate Lx. exact Hx.
    + intros Hy. exists y. split; [exact Hy|]. destruct y as [|a [|b [|]]]; try discriminate Ly. reflexivity.
  - assert (NE : exists x, in_poly (fresh p) x). { destruct HB as (c & Lc & Ec & Hc). exists c. change (in_poly p c). apply Hc; auto. unfold dist2. rewrite vsub_self, dot_zeros_l. apply Rle_0_sqr. }
    assert (RB : radii_bounded (fresh p)). { destruct (chebyshev_polytope np (fresh p) m 0 2 Hnp W' GE ltac:(lia) eq_refl NE B) as (rr & c & p3 & _ & _ & _ & _ & LB). exists rr. exact LB. }
    destruct (chebyshev_ok np (fresh p) m 0 2 Hnp W' GE eq_refl eq_refl) as (rr & c & p3 & _ & EC & _ & _ & LB).
    + exact NE.
    + exact RB.
    + destruct (center_coh np p' CF) as (EQ & _). assert (Lc : length c = 2%nat) by (destruct LB as (_ & (Lc & _) & _); rewrite Lc; apply W). destruct c as [|a [|b [|]]]; try discriminate Lc. exists a, b, rr. split; [|exact LB]. rewrite EQ, FF, EC. reflexivity.
Qed.

(*@ Theorem C73_partition : If every critical region is a polygon that can be plotted (C72), plot_state_space_partition draws for each of them, in order, a closed path that goes around exactly that region, and on request writes its active set at the center of a largest disc inscribed in it. *)
Lemma plot_partition np hull2 C crs pr : exact_np np -> halfspaces_ok np -> lnx (c_S C) = 2%nat -> Forall (fun cr => plottable np (cr_poly cr)) crs ->
  Forall (fun cr => forall V, fst (get_vertices np (cr_poly cr)) = Ok (Some V) -> hull2_ok V (hull2 V)) crs ->
  exists parts, plot_state_space_partition np hull2 C (Some crs) pr = (concat parts, Ok tt) /\
    Forall2 (fun cr part => exists path rest, part = Patch path :: XLabel 1 :: YLabel 2 :: rest /\ goes_around path (in_poly (cr_poly cr)) /\
      (pr = false -> rest = []) /\ (pr = true -> exists a b r, rest = [SetText a b (cr_active cr)] /\ largest_ball (cr_poly cr) [a; b] r)) crs parts.
Proof.
  intros Hnp Hhs E2 HP HK. unfold plot_state_space_partition. rewrite E2. cbn [Nat.eqb negb]. induction HP as [|cr crs P1 HP IH]; [exists []; split; [reflexivity|constructor]|].
  inversion HK as [|? ? K1 HK']; subst. destruct (IH HK') as (parts & E & F). destruct (plottable_plot np hull2 (cr_poly cr) Hnp Hhs P1 K1) as (path & p' & EP & GA & a & b & r & EC & LB).
  exists ((Patch path :: XLabel 1 :: YLabel 2 :: (if pr then [SetText a b (cr_active cr)] else [])) :: parts). split.
  - cbn [dfor concat]. rewrite EP. match goal with |- dbind ?m _ = _ => assert (EM : m = (Patch path :: XLabel 1 :: YLabel 2 :: (if pr then [SetText a b (cr_active cr)] else []), Ok tt)) end.
    { unfold dbind at 1. cbn [snd fst]. destruct pr; [rewrite EC; reflexivity|reflexivity]. }
    rewrite EM. apply dbind_ok. exact E.
  - constructor; [|exact F]. exists path, (if pr then [SetText a b (cr_active cr)] else []). split; [reflexivity|]. split; [exact GA|]. split; [intros ->; reflexivity|]. intros ->. exists a, b, r. split; [reflexivity|exact LB].
Qed.
(*@ Theorem C73_errors : Both plots raise ValueError, before drawing anything, unless the state has two components and the explicit solution has been stored. *)
Lemma plot_controller_errors np hull2 fuel C es pr n : lnx (c_S C) <> 2%nat \/ es = None ->
  plot_state_space_partition np hull2 C es pr = ([], Err ValueError) /\ plot_optimal_value_function np hull2 fuel C es n = ([], Err ValueError).
Proof.
  intros H. unfold plot_state_space_partition, plot_optimal_value_function. destruct (Nat.eqb_spec (lnx (c_S C)) 2) as [E|N]; [|split; reflexivity]. destruct H as [H| ->]; [congruence|]. split; reflexivity.
Qed.
Lemma fold_max l : forall a, (a <= fold_left Rmax l a) /\ (forall x, In x l -> x <= fold_left Rmax l a) /\ (fold_left Rmax l a = a \/ In (fold_left Rmax l a) l).
Proof.
  induction l as [|b l IH]; intros a; cbn [fold_left]; [split; [lra|split; [intros x []|left; reflexivity]]|]. destruct (IH (Rmax a b)) as (I1 & I2 & I3). split; [|split].
  - eapply Rle_trans; [apply Rmax_l|exact I1].
  - intros x [<-|Hx]; [eapply Rle_trans; [apply Rmax_r|exact I1]|apply I2, Hx].
  - destruct I3 as [-> |I3]; [|right; right; exact I3]. unfold Rmax. destruct (Rle_dec a b); [right; left; reflexivity|left; reflexivity].
Qed.
Lemma fold_min l : forall a, (fold_left Rmin l a <= a) /\ (forall x, In x l -> fold_left Rmin l a <= x) /\ (fold_left Rmin l a = a \/ In (fold_left Rmin l a) l).
Proof.
  induction l as [|b l IH]; intros a; cbn [fold_left]; [split; [lra|split; [intros x []|left; reflexivity]]|]. destruct (IH (Rmin a b)) as (I1 & I2 & I3). split; [|split].
  - eapply Rle_trans; [exact I1|apply Rmin_l].
  - intros x [<-|Hx]; [eapply Rle_trans; [exact I1|apply Rmin_r]|apply I2, Hx].
  - destruct I3 as [-> |I3]; [|right; right; exact I3]. unfold Rmin. destruct (Rle_dec a b); [left; reflexivity|right; left; reflexivity].
Qed.
Lemma pymax_ok l : l <> [] -> exists M, pymax l = Ok M /\ In M l /\ forall x, In x l -> x <= M.
Proof. destruct l as [|a l]; [congruence|]. intros _. destruct (fold_max l a) as (H1 & H2 & H3). exists (fold_left Rmax l a). split; [reflexivity|]. split; [destruct H3 as [->|H3]; [left; reflexivity|right; exact H3]|]. intros x [<-|Hx]; [exact H1|apply H2, Hx]. Qed.
Lemma pymin_ok l : l <> [] -> exists M, pymin l = Ok M /\ In M l /\ forall x, In x l -> M <= x.
Proof. destruct l as [|a l]; [congruence|]. intros _. destruct (fold_min l a) as (H1 & H2 & H3). exists (fold_left Rmin l a). split; [reflexivity|]. split; [destruct H3 as [->|H3]; [left; reflexivity|right; exact H3]|]. intros x [<-|Hx]; [exact H1|apply H2, Hx]. Qed.
Lemma comps_ok V n i : Forall (fun v => length v = n) V -> (i < n)%nat -> mapM (fun v => getv v i) V = Ok (map (fun v => nth i v 0) V).
Proof. intros F Hi. induction F as [|v V Lv F IH]; [reflexivity|]. cbn [mapM map]. rewrite getv_ok by lia. cbn [bind]. rewrite IH. reflexivity. Qed.
Lemma mapM_nth {A B} (f : A -> res B) (l : list A) (da : A) (db : B) : (forall a, In a l -> exists b, f a = Ok b) -> exists bs, mapM f l = Ok bs /\ length bs = length l /\ forall i, (i < length l)%nat -> f (nth i l da) = Ok (nth i bs db).
Proof.
  induction l as [|a l IH]; intros H; [exists []; split; [reflexivity|split; [reflexivity|cbn; lia]]|]. destruct (H a (or_introl eq_refl)) as (b & Eb). destruct IH as (bs & E & L & N); [intros; apply H; right; assumption|].
  exists (b :: bs). cbn [mapM]. rewrite Eb. cbn [bind]. rewrite E. split; [reflexivity|]. split; [cbn; lia|]. intros [|i] Hi; [exact Eb|apply N; cbn in Hi; lia].
Qed.
Lemma grid_nth (xs ys : vec) : forall i j, (i < length xs)%nat -> (j < length ys)%nat -> nth (j * length xs + i) (flat_map (fun b => map (fun a => (a, b)) xs) ys) (0, 0) = (nth i xs 0, nth j ys 0).
Proof.
  induction ys as [|b ys IH]; intros i j Hi Hj; [cbn in Hj; lia|]. cbn [flat_map]. destruct j as [|j].
  - cbn [Nat.mul Nat.add nth]. rewrite app_nth1 by (rewrite map_length; exact Hi). rewrite (nth_indep _ (0, 0) (0, b)) by (rewrite map_length; exact Hi). apply (map_nth (fun a => (a, b))).
  - rewrite app_nth2; rewrite map_length; [|nia]. replace (S j * length xs + i - length xs)%nat with (j * length xs + i)%nat by nia. cbn in Hj. apply IH; [exact Hi|lia].
Qed.
Lemma grid_length (xs ys : vec) : length (flat_map (fun b => map (fun a => (a, b)) xs) ys) = (length ys * length xs)%nat.
Proof. induction ys as [|b ys IH]; [reflexivity|]. cbn [flat_map]. rewrite app_length, map_length, IH. reflexivity. Qed.
(** n equidistant values from the least to the greatest of a list *)
Definition spans (xs : vec) (n : nat) (l : vec) : Prop :=
  length xs = n /\ In (nth 0 xs 0) l /\ In (nth (n - 1) xs 0) l /\ (forall v, In v l -> nth 0 xs 0 <= v <= nth (n - 1) xs 0) /\
  forall i, (i < n)%nat -> nth i xs 0 = nth 0 xs 0 + INR i / INR (n - 1) * (nth (n - 1) xs 0 - nth 0 xs 0).
Lemma spans_ok n l a b : (2 <= n)%nat -> In a l -> In b l -> (forall v, In v l -> a <= v) -> (forall v, In v l -> v <= b) -> spans (linspace a b n) n l.
Proof.
  intros Hn Ha Hb La Lb. assert (D : INR (n - 1) <> 0) by (apply not_0_INR; lia). assert (E0 : nth 0 (linspace a b n) 0 = a) by (rewrite linspace_nth by lia; cbn; lra). assert (E1 : nth (n - 1) (linspace a b n) 0 = b) by (rewrite linspace_nth by lia; field; exact D).
  split; [apply linspace_length|]. rewrite E0, E1. split; [exact Ha|]. split; [exact Hb|]. split; [intros v Hv; split; auto|]. intros i Hi. rewrite linspace_nth by lia. field. exact D.
Qed.
(*@ Theorem C73_value_function : If get_feasible_set returns a polygon with vertices V, plot_optimal_value_function draws it and level sets of a grid: equidistant abscissae and ordinates that span exactly the bounding box of V, and at each grid point the value V* of the explicit solution there (None outside all the regions). *)
Lemma plot_value np hull2 fuel C crs F V n : lnx (c_S C) = 2%nat -> (2 <= n)%nat -> get_feasible_set np fuel (c_mpqp C) = Ok F -> p_vertices F = Some V ->
  V <> [] -> Forall (fun v => length v = 2%nat) V -> ~ collinear V -> hull2_ok V (hull2 V) -> (forall a b, exists o, es_V crs [a; b] = Ok o) ->
  exists path xs ys Z, plot_optimal_value_function np hull2 fuel C (Some crs) n = ([Patch path; XLabel 1; YLabel 2; Contour xs ys Z], Ok tt) /\
    goes_around path (in_hull 2 V) /\ spans xs n (map (fun v => nth 0 v 0) V) /\ spans ys n (map (fun v => nth 1 v 0) V) /\ length Z = (n * n)%nat /\
    forall i j, (i < n)%nat -> (j < n)%nat -> es_V crs [nth i xs 0; nth j ys 0] = Ok (nth (j * n + i) Z None).
Proof.
  intros E2 Hn EF EV NV FV NC HK HE. 
  assert (EP : map (pk 0 1) V = V). { clear -FV. induction FV as [|v V Lv F IH]; [reflexivity|]. cbn [map]. rewrite IH. f_equal. destruct v as [|a [|b [|]]]; try discriminate Lv. reflexivity. }
  assert (HK' : hull2_ok (map (pk 0 1) V) (hull2 (map (pk 0 1) V))) by (rewrite EP; exact HK).
  destruct (polygon_ok hull2 2 0 1 V (in_hull 2 V) NV FV ltac:(lia) ltac:(lia) (fun x => iff_refl _) HK') as [(path & PG & GA & _)|(_ & a & d & La & Na & Ha)].
  2:{ exfalso. apply NC. exists a, d. split; [exact La|]. split; [exact Na|]. apply Forall_forall. intros v Hv. rewrite Forall_forall in FV. pose proof (FV v Hv) as Lv. rewrite <- (Ha v); [|apply in_hull_pt; [apply Forall_forall; exact FV|exact Hv]]. destruct v as [|x [|y [|]]]; try discriminate Lv. reflexivity. }
  assert (GV : get_vertices np F = (Ok (Some V), F)) by (unfold get_vertices, pget, pbind; rewrite EV; reflexivity).
  assert (N0 : map (fun v => nth 0 v 0) V <> []) by (destruct V; [congruence|discriminate]). assert (N1 : map (fun v => nth 1 v 0) V <> []) by (destruct V; [congruence|discriminate]).
  destruct (pymax_ok _ N0) as (x1 & Ex1 & Ix1 & Hx1). destruct (pymin_ok _ N0) as (x0 & Ex0 & Ix0 & Hx0). destruct (pymax_ok _ N1) as (y1 & Ey1 & Iy1 & Hy1). destruct (pymin_ok _ N1) as (y0 & Ey0 & Iy0 & Hy0).
  set (xs := linspace x0 x1 n). set (ys := linspace y0 y1 n). assert (Lxs : length xs = n) by apply linspace_length. assert (Lys : length ys = n) by apply linspace_length.
  destruct (mapM_nth (fun ab => es_V crs [fst ab; snd ab]) (flat_map (fun b => map (fun a => (a, b)) xs) ys) (0, 0) None) as (Z & EZ & LZ & NZ); [intros (a, b) _; apply HE|].
  exists path, xs, ys, Z. split; [|split; [|split; [|split; [|split]]]].
  - unfold plot_optimal_value_function. rewrite E2. cbn [Nat.eqb negb]. rewrite EF, dbind_lift. cbn beta iota. rewrite GV, dbind_lift. cbn beta iota. rewrite (comps_ok V 2 0 FV) by lia. rewrite dbind_lift, Ex1, dbind_lift, Ex0, dbind_lift, (comps_ok V 2 1 FV) by lia. rewrite dbind_lift, Ey1, dbind_lift, Ey0, dbind_lift. fold xs. fold ys. rewrite EZ, dbind_lift.
    unfold poly_plot. cbn [length Nat.eqb negb]. rewrite GV, dbind_lift. cbn beta iota. rewrite PG. reflexivity.
  - apply (goes_around_ext path (fun y => exists x, in_hull 2 V x /\ y = [nth 0 x 0; nth 1 x 0])); [|exact GA]. intros y Ly. split.
    + intros (x & Hx & ->). assert (Lx : length x = 2%nat) by (destruct Hx as (l & _ & _ & _ & ->); apply lincomb_length, FV). destruct x as [|a [|b [|]]]; try discriminate Lx. exact Hx.
    + intros Hy. exists y. split; [exact Hy|]. destruct y as [|a [|b [|]]]; try discriminate Ly. reflexivity.
  - apply spans_ok; assumption.
  - apply spans_ok; assumption.
  - rewrite LZ, grid_length, Lxs, Lys. reflexivity.
  - intros i j Hi Hj. pose proof (NZ (j * n + i)%nat) as H. rewrite grid_length, Lxs, Lys in H. specialize (H ltac:(nia)). pose proof (grid_nth xs ys i j ltac:(lia) ltac:(lia)) as G. rewrite Lxs in G. rewrite G in H. exact H.
Qed.
(** ** Concrete cases *)
(** the square [a, a + 1] x [0, 1] *)
Definition square_at (a : R) : poly := Poly (Mat 2 [[1; 0]; [-1; 0]; [0; 1]; [0; -1]]) [a + 1; - a; 1; 0] (Mat 2 []) [] None None None None None.
Lemma square_at_in a x y : in_poly (square_at a) [x; y] <-> a <= x <= a + 1 /\ 0 <= y <= 1.
Proof.
  unfold in_poly, in_set, ineq_holds, eq_holds. cbn [square_at pA pb pC pd rows ncols length]. split.
  - intros (_ & H & _). inversion H as [|? ? ? ? H1 K1]; subst. inversion K1 as [|? ? ? ? H2 K2]; subst. inversion K2 as [|? ? ? ? H3 K3]; subst. inversion K3 as [|? ? ? ? H4 K4]; subst. unfold dot in *. cbn in *. lra.
  - intros H. split; [reflexivity|]. split; repeat first [apply Forall2_nil|apply Forall2_cons]; unfold dot; cbn; lra.
Qed.
Lemma square_at_plottable np a : plottable np (square_at a).
Proof.
  assert (P2 : forall v : vec, length v = 2%nat -> exists x y, v = [x; y]) by (intros v Lv; destruct v as [|x [|y [|]]]; try discriminate Lv; eauto).
  split; [apply (cache_fresh np (square_at a))|]. split; [|split].
  - exists (Rabs a + 2). intros v Hv. destruct (P2 v (proj1 Hv)) as (x & y & ->). apply square_at_in in Hv. assert (Ra := Rle_abs a). assert (Rb := Rle_abs (- a)). rewrite Rabs_Ropp in Rb. apply norm_le_sqr; [pose proof (Rabs_pos a); lra|]. unfold dot. cbn. set (r := Rabs a) in *. assert (- (r + 1) <= x <= r + 1) by lra. assert (x * x <= (r + 1) * (r + 1)) by nra. nra.
  - exists [a + / 2; / 2]. split; [reflexivity|]. split; [constructor|]. intros v Lv _ D. destruct (P2 v Lv) as (x & y & ->). apply square_at_in. unfold dist2, dot in D. cbn in D. assert (T1 : tol7 * tol7 <= / 4) by (unfold tol7; lra). pose proof (Rle_0_sqr (x - (a + / 2))) as S1. pose proof (Rle_0_sqr (y - / 2)) as S2. unfold Rsqr in *. assert (Qa : (x - (a + / 2)) * (x - (a + / 2)) <= / 4) by lra. assert (Qb : (y - / 2) * (y - / 2) <= / 4) by lra. clear D S1 S2 T1. set (u := x - (a + / 2)) in *. assert (- / 2 <= u <= / 2) by nra. unfold u in *. split; [lra|nra].
  - exists 4%nat. split; [repeat split; repeat constructor|]. intros i Hi. exists [a + / 2; / 2]. split; [apply square_at_in; lra|]. destruct i as [|[|[|[|]]]]; [| | | |lia]; unfold dot; cbn; lra.
Qed.
Definition cr_square (act : list nat) (a : R) : critical_region := CR act (Mat 2 [[0; 0]]) [0] (Mat 2 []) [] (eye 2) [a; 1] 3 (square_at a).
Definition two_squares : list critical_region := [cr_square [] 0; cr_square [1%nat] 1].
(** a controller with two states *)
Definition q_box3 : mpqp := MPQP (eye 1) (zmat 1 2) (eye 2) [0] [0; 0] 0 (Mat 1 [[0]; [0]; [0]; [0]; [1]; [-1]]) (Mat 2 [[1; 0]; [-1; 0]; [0; 1]; [0; -1]; [0; 0]; [0; 0]]) [1; 1; 5; -3; 1; 0] (eye 1).
Definition C_box3 : mpc := MPC (LSys (eye 2) (Mat 1 [[0]; [1]]) None) 1 q_box3.
(*@ Example C73_partition_example : Two adjacent unit squares, the second with one active constraint, can be plotted by routines that meet the contracts. *)
Lemma plot_partition_example rnd : let np := np_vert rnd in exists hull2 path1 path2 a1 b1 a2 b2,
  Forall (fun cr => plottable np (cr_poly cr) /\ forall V, fst (get_vertices np (cr_poly cr)) = Ok (Some V) -> hull2_ok V (hull2 V)) two_squares /\
  plot_state_space_partition np hull2 C_box3 (Some two_squares) true =
    ([Patch path1; XLabel 1; YLabel 2; SetText a1 b1 []; Patch path2; XLabel 1; YLabel 2; SetText a2 b2 [1%nat]], Ok tt) /\
  goes_around path1 (in_poly (square_at 0)) /\ goes_around path2 (in_poly (square_at 1)).
Proof.
  intros np. destruct (np_vert_ok rnd) as (Hnp & _ & _ & Hhs). fold np in Hnp, Hhs.
  assert (HV : forall a, exists V r, fst (get_vertices np (square_at a)) = Ok (Some V) /\ hull2_ok V r).
  { intros a. destruct (square_at_plottable np a) as (_ & B & HB & m & W & HI). destruct (polytope_vertices np (square_at a) m 0 2 Hnp Hhs W ltac:(left; reflexivity) ltac:(lia) eq_refl B HB HI) as (V & p1 & EV & HV & _).
    destruct (hull2_satisfiable V) as (r & Hr); [|exists V, r; rewrite EV; split; [reflexivity|exact Hr]]. apply Forall_forall. intros v Hv. apply HV in Hv. destruct Hv as ((Lv & _) & _). exact Lv. }
  destruct (HV 0) as (V1 & r1 & E1 & K1). destruct (HV 1) as (V2 & r2 & E2 & K2).
  set (hull2 := fun pts : list vec => if list_eq_dec (list_eq_dec Req_EM_T) pts V1 then r1 else r2). exists hull2.
  assert (H1 : hull2_ok V1 (hull2 V1)) by (unfold hull2; destruct (list_eq_dec (list_eq_dec Req_EM_T) V1 V1); [exact K1|congruence]).
  assert (H2 : hull2_ok V2 (hull2 V2)) by (unfold hull2; destruct (list_eq_dec (list_eq_dec Req_EM_T) V2 V1) as [->|]; [exact K1|exact K2]).
  assert (KK : Forall (fun cr => forall V, fst (get_vertices np (cr_poly cr)) = Ok (Some V) -> hull2_ok V (hull2 V)) two_squares).
  { constructor; [|constructor; [|constructor]]; cbn [cr_square cr_poly]; intros V EV; [rewrite E1 in EV|rewrite E2 in EV]; injection EV as <-; assumption. }
  assert (PP : Forall (fun cr => plottable np (cr_poly cr)) two_squares) by (constructor; [|constructor; [|constructor]]; apply square_at_plottable).
  destruct (plot_partition np hull2 C_box3 two_squares true Hnp Hhs eq_refl PP KK) as (parts & EP & FP).
  inversion FP as [|? part1 ? parts1 P1 FP1]; subst. inversion FP1 as [|? part2 ? parts2 P2 FP2]; subst. inversion FP2; subst.
  destruct P1 as (path1 & rest1 & -> & G1 & _ & T1). destruct P2 as (path2 & rest2 & -> & G2 & _ & T2). destruct (T1 eq_refl) as (a1 & b1 & ? & -> & _). destruct (T2 eq_refl) as (a2 & b2 & ? & -> & _).
  exists path1, path2, a1, b1, a2, b2. split; [|split; [exact EP|split; assumption]]. rewrite Forall_forall in *. intros cr Hcr. split; [apply PP, Hcr|apply KK, Hcr].
Qed.
Lemma es_V_total a b : exists o, es_V two_squares [a; b] = Ok o.
Proof.
  assert (CT : forall act c, exists r, cr_contains (cr_square act c) [a; b] = Ok r). { intros act c. destruct (contains_ok (square_at c) 4 0 2 [a; b] tol7) as (r & E & _); [repeat split; repeat constructor|lia|lia|reflexivity|]. exists r. exact E. }
  destruct (CT [] 0) as (r1 & E1). destruct (CT [1%nat] 1) as (r2 & E2). unfold es_V, es_eval, two_squares. cbn [get_critical_region]. rewrite E1. cbn [bind]. destruct r1; [eexists; reflexivity|]. rewrite E2. cbn [bind]. destruct r2; eexists; reflexivity.
Qed.
(*@ Example C73_value_function_example : For the feasible set x in [-1, 1] x [3, 5], u in [0, 1], a ten by ten grid and routines that meet the contracts, the level sets are drawn over a polygon inside the feasible set. *)
Lemma plot_value_example : exists fuel hull2 V path xs ys Z, hull2_ok V (hull2 V) /\
  plot_optimal_value_function np_half hull2 fuel C_box3 (Some two_squares) 10 = ([Patch path; XLabel 1; YLabel 2; Contour xs ys Z], Ok tt) /\
  goes_around path (in_hull 2 V) /\ V <> [] /\ forall v, In v V -> exists x y, v = [x; y] /\ -1 <= x <= 1 /\ 3 <= y <= 5.
Proof.
  destruct project_example as ((H1 & H2 & H3 & H4) & W & HC & HN & HB & HD & F & HF). 
  assert (EX : xu_poly q_box3 = box3) by reflexivity.
  assert (SA : shape (q_Au q_box3) 6 1) by (repeat split; repeat constructor). assert (SX : shape (q_Ax q_box3) 6 2) by (repeat split; repeat constructor).
  assert (SP : forall x, feasible_parameter (q_Au q_box3) (q_Ax q_box3) (q_b q_box3) 1 2 x <-> exists a b, x = [a; b] /\ -1 <= a <= 1 /\ 3 <= b <= 5) by (intros x; rewrite <- (xu_projection q_box3 6 1 2 SA SX eq_refl x), EX; apply box3_proj).
  destruct (feasible_set_ok np_half q_box3 6 1 2 3 H1 H2 H3 H4 SA SX eq_refl (le_n 2)) as (F2 & HF2).
  { destruct HN as (x & Ix & Nx). exists x. split; [apply (xu_in q_box3 6 1 2 SA SX eq_refl); rewrite EX; exact Ix|exact Nx]. }
  { destruct HB as (M & HM). exists M. intros x Ix. apply HM. rewrite <- EX. apply (xu_in q_box3 6 1 2 SA SX eq_refl). exact Ix. }
  { intros y y' Hy Hy'. apply HD; rewrite <- EX; apply (xu_projection q_box3 6 1 2 SA SX eq_refl); assumption. }
  set (fuel := (F + F2)%nat). destruct (HF fuel ltac:(unfold fuel; lia)) as (q & Eq). pose proof (feasible_set_project q_box3 6 1 2 SA SX eq_refl np_half fuel) as FP. rewrite EX in FP. change (seq 0 2) with [0%nat; 1%nat] in FP. rewrite Eq in FP.
  destruct (HF2 fuel) as [(p & V & k & E & Wp & EV & FV & HH & _ & Hs & UE & TH)|[(E & _)|[(E & _)|(E & _)]]]; try (rewrite FP in E; discriminate E).
  assert (LV : Forall (fun v => length v = 2%nat) V) by (eapply Forall_impl; [|exact FV]; intros v Hv; apply SP in Hv; destruct Hv as (a & b & -> & _); reflexivity).
  assert (NC : ~ collinear V).
  { intros (a & d & La & Na & Ha). destruct TH as [(c & Lc & Uc & T)|TH]; [|apply Na, (TH a d La Ha)]. destruct c as [|a0 [|a1 [|]]]; try discriminate Lc.
    assert (P : forall x y, -1 <= x <= 1 -> 3 <= y <= 5 -> feasible_parameter (q_Au q_box3) (q_Ax q_box3) (q_b q_box3) 1 2 [x; y]) by (intros x y Hx Hy; apply SP; exists x, y; auto).
    pose proof (T _ _ (P (-1) 3 ltac:(lra) ltac:(lra)) (P 1 5 ltac:(lra) ltac:(lra))) as A1. pose proof (T _ _ (P 1 5 ltac:(lra) ltac:(lra)) (P (-1) 3 ltac:(lra) ltac:(lra))) as A2.
    pose proof (T _ _ (P (-1) 5 ltac:(lra) ltac:(lra)) (P 1 3 ltac:(lra) ltac:(lra))) as A3. pose proof (T _ _ (P 1 3 ltac:(lra) ltac:(lra)) (P (-1) 5 ltac:(lra) ltac:(lra))) as A4. cbn in A1, A2, A3, A4. unfold tol7 in *.
    assert (Q : a0 * a0 + a1 * a1 = 1). { pose proof (norm_sqr [a0; a1]) as Q. rewrite Uc in Q. cbn in Q. lra. } nra. }
  assert (NV : V <> []) by (intros ->; apply NC; exists [1; 0], 0; split; [reflexivity|]; split; [intros Q; injection Q; lra|constructor]).
  destruct (hull2_satisfiable V LV) as (r & Hr). exists fuel, (fun _ => r), V.
  destruct (plot_value np_half (fun _ => r) fuel C_box3 two_squares p V 10 eq_refl ltac:(lia) E EV NV LV NC Hr es_V_total) as (path & xs & ys & Z & EP & GA & _).
  exists path, xs, ys, Z. split; [exact Hr|]. split; [exact EP|]. split; [exact GA|]. split; [exact NV|]. intros v Hv. rewrite Forall_forall in FV. apply SP, FV, Hv.
Qed.
