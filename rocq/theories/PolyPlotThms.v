(** * PolyPlotThms: the plot of a polyhedron is the polygon of its projection (C72), proofs *)
From Coq Require Import ZArith Classical.
From Verif Require Import Arr ArrFacts Spec SpecVert SpecPlot Numpy Pnnls PnnlsFacts QpFacts GeomUtils Polyhedron PolyThms Oracle SolverThms NullFacts PolySolveThms PolyMore PolySetThms PolyBoundThms PolyChebThms PolyCacheThms PolyVertThms GeomThms HullOracle VertOracle VertFacts VertThms Dynamics Mpqp Controllers Projection Plots PlotThms.

Lemma dbind_lift {A B} (a : A) (k : A -> dw B) : dbind (dlift (Ok a)) k = k a.
Proof. unfold dbind. cbn. symmetry. apply surjective_pairing. Qed.
Definition pk (d0 d1 : nat) (v : vec) : vec := [nth d0 v 0; nth d1 v 0].
Lemma pk_lincomb n d0 d1 l V : Forall (fun v => length v = n) V -> pk d0 d1 (lincomb n l V) = lincomb 2 l (map (pk d0 d1) V).
Proof.
  intros F. revert l. induction F as [|v V Lv F IH]; intros [|a l]; try (cbn; unfold pk; rewrite !nth_zeros; reflexivity).
  assert (LL : length (lincomb n l V) = n) by (apply lincomb_length; exact F). cbn [lincomb map]. rewrite <- IH. unfold pk. rewrite !nth_vadd, !nth_vscale by len. reflexivity.
Qed.
Lemma hull_pick n d0 d1 V y : Forall (fun v => length v = n) V -> (in_hull 2 (map (pk d0 d1) V) y <-> exists x, in_hull n V x /\ y = pk d0 d1 x).
Proof.
  intros F. split.
  - intros (l & Ll & Hl & S1 & ->). rewrite map_length in Ll. exists (lincomb n l V). split; [exists l; auto|]. symmetry. apply pk_lincomb, F.
  - intros (x & (l & Ll & Hl & S1 & ->) & ->). exists l. rewrite map_length. split; [exact Ll|]. split; [exact Hl|]. split; [exact S1|]. apply pk_lincomb, F.
Qed.
Lemma picks_ok d0 d1 n V : Forall (fun v => length v = n) V -> (d0 < n)%nat -> (d1 < n)%nat -> mapM (pick [d0; d1]) V = Ok (map (pk d0 d1) V).
Proof.
  intros F H0 H1. induction F as [|v V Lv F IH]; [reflexivity|]. cbn [mapM map]. unfold pick at 1. cbn [mapM]. rewrite !getv_ok by lia. cbn [bind]. rewrite IH. reflexivity.
Qed.
Lemma getls_ok (pts : list vec) idx : Forall (fun i => (i < length pts)%nat) idx -> mapM (getl pts) idx = Ok (map (fun i => nth i pts []) idx).
Proof.
  induction 1 as [|i idx Hi F IH]; [reflexivity|]. cbn [mapM map]. unfold getl at 1. rewrite (nth_error_nth' pts [] Hi). cbn [bind]. rewrite IH. reflexivity.
Qed.
Lemma goes_around_ext path T T' : (forall x, length x = 2%nat -> (T x <-> T' x)) -> goes_around path T -> goes_around path T'.
Proof. intros E (H1 & H2 & H3). split; [exact H1|]. split; [exact H2|]. intros x Lx. rewrite <- (E x Lx). apply H3, Lx. Qed.
Lemma hull_dot n V a x : Forall (fun v => length v = n) V -> in_hull n V x -> forall d, (forall v, In v V -> dot a v = d) -> dot a x = d.
Proof.
  intros F Hx d H. apply Rle_antisym; [apply (in_hull_max n V a d x F); [intros v Hv; rewrite (H v Hv); lra|exact Hx]|].
  assert (dot (vneg a) x <= - d) by (apply (in_hull_max n V (vneg a) (- d) x F); [intros v Hv; rewrite dot_vneg_l, (H v Hv); lra|exact Hx]). rewrite dot_vneg_l in H0. lra.
Qed.
(** the polygon of the vertices *)
Lemma polygon_ok hull2 n d0 d1 V (T : vec -> Prop) : V <> [] -> Forall (fun v => length v = n) V -> (d0 < n)%nat -> (d1 < n)%nat -> (forall x, T x <-> in_hull n V x) ->
  hull2_ok (map (pk d0 d1) V) (hull2 (map (pk d0 d1) V)) ->
  (exists path, polygon hull2 [d0; d1] V = Ok path /\ goes_around path (fun y => exists x, T x /\ y = [nth d0 x 0; nth d1 x 0]) /\ Forall (fun w => exists v, In v V /\ w = [nth d0 v 0; nth d1 v 0]) path) \/
  (polygon hull2 [d0; d1] V = Err QhullError /\ exists a d, length a = 2%nat /\ a <> zeros 2 /\ forall x, T x -> dot a [nth d0 x 0; nth d1 x 0] = d).
Proof.
  intros NV F H0 H1 HT HK. unfold polygon. destruct V as [|v0 V'] eqn:EV; [congruence|]. rewrite <- EV in *. clear EV v0 V'.
  rewrite (picks_ok d0 d1 n V F H0 H1). cbn [bind]. unfold hull2_ok in HK. destruct (hull2 (map (pk d0 d1) V)) as [idx|e].
  - left. destruct HK as (NI & _ & FI & GA). cbn [bind]. rewrite (getls_ok _ idx FI). cbn [bind]. destruct idx as [|i0 idx]; [congruence|]. cbn [map getl nth_error bind hd] in *.
    exists (map (fun i => nth i (map (pk d0 d1) V) []) (i0 :: idx) ++ [nth i0 (map (pk d0 d1) V) []]). split; [reflexivity|]. split.
    + apply (goes_around_ext _ (in_hull 2 (map (pk d0 d1) V))); [|exact GA]. intros x _. rewrite (hull_pick n) by exact F. unfold pk. split; intros (z & Hz & E); exists z; (split; [apply HT, Hz|exact E]).
    + assert (HI : forall i, (i < length (map (pk d0 d1) V))%nat -> exists v, In v V /\ nth i (map (pk d0 d1) V) [] = [nth d0 v 0; nth d1 v 0]).
      { intros i Hi. pose proof (nth_In (map (pk d0 d1) V) [] Hi) as HIn. apply in_map_iff in HIn. destruct HIn as (v & E & Hv). exists v. split; [exact Hv|]. rewrite <- E. reflexivity. }
      rewrite Forall_forall in FI. apply Forall_forall. intros w Hw. apply in_app_iff in Hw. destruct Hw as [Hw|[<-|[]]].
      * apply in_map_iff in Hw. destruct Hw as (i & <- & Hi). apply HI, FI, Hi.
      * apply HI, FI. left. reflexivity.
  - right. destruct HK as (-> & a & d & La & Na & Ha). split; [reflexivity|]. exists a, d. split; [exact La|]. split; [exact Na|]. intros x Hx.
    assert (FP : Forall (fun v => length v = 2%nat) (map (pk d0 d1) V)) by (apply Forall_forall; intros w Hw; apply in_map_iff in Hw; destruct Hw as (v & <- & _); reflexivity).
    apply (hull_dot 2 (map (pk d0 d1) V) a (pk d0 d1 x) FP); [apply (hull_pick n d0 d1 V _ F); exists x; split; [apply HT, Hx|reflexivity]|]. intros v Hv. rewrite Forall_forall in Ha. apply Ha, Hv.
Qed.
(*@ Theorem C72_plot : For a polytope with the hypotheses of C68 and indices in range, plot draws one closed polygon, with corners among the projections of the extreme points, that goes counterclockwise around the projection of the polytope on the two dimensions; the axes carry their names. If instead the projection is flat, it raises QhullError. *)
Lemma plot_polytope np hull2 p m me n d0 d1 : exact_np np -> halfspaces_ok np -> wf p m me n -> good_eqs p me n -> (me + 2 <= n)%nat -> fresh p = p ->
  bounded_set (in_poly p) -> (exists c, ball_in p c tol7) -> (forall i, (i < m)%nat -> exists x, in_poly p x /\ dot (row (pA p) i) x < nth i (pb p) 0) ->
  (d0 < n)%nat -> (d1 < n)%nat ->
  (forall V p', get_vertices np p = (Ok (Some V), p') -> let pts := map (fun v => [nth d0 v 0; nth d1 v 0]) V in hull2_ok pts (hull2 pts)) ->
  (exists path p', poly_plot np hull2 [d0; d1] p = ([Patch path; XLabel (d0 + 1); YLabel (d1 + 1)], Ok p') /\
     goes_around path (fun y => exists x, in_poly p x /\ y = [nth d0 x 0; nth d1 x 0]) /\
     Forall (fun w => exists v, extreme (in_poly p) v /\ w = [nth d0 v 0; nth d1 v 0]) path) \/
  (poly_plot np hull2 [d0; d1] p = ([], Err QhullError) /\ exists a d, length a = 2%nat /\ a <> zeros 2 /\ forall x, in_poly p x -> dot a [nth d0 x 0; nth d1 x 0] = d).
Proof.
  intros Hnp Hhs W G Hme Fr B HB HI H0 H1 HK. destruct (polytope_vertices np p m me n Hnp Hhs W G Hme Fr B HB HI) as (V & p' & EV & HV & HH).
  specialize (HK V p' EV). cbv zeta in HK. assert (F : Forall (fun v => length v = n) V). { apply Forall_forall. intros v Hv. apply HV in Hv. destruct Hv as ((Lv & _) & _). rewrite Lv. apply W. }
  assert (NV : V <> []). { intros ->. destruct HB as (c & Lc & Ec & Hc). assert (IP : in_poly p c). { apply Hc; auto. unfold dist2. rewrite vsub_self, dot_zeros_l. apply Rle_0_sqr. } apply HH in IP. destruct IP as (l & Ll & _ & S1 & _). destruct l; [cbn in S1; lra|discriminate Ll]. }
  unfold poly_plot. cbn [length Nat.eqb negb]. rewrite EV. destruct (polygon_ok hull2 n d0 d1 V (in_poly p) NV F H0 H1 HH HK) as [(path & E & GA & FP)|(E & C)].
  - left. exists path, p'. split; [rewrite dbind_lift; cbn beta iota; rewrite E; reflexivity|]. split; [exact GA|]. eapply Forall_impl; [|exact FP]. intros w (v & Hv & Ew). exists v. split; [apply HV, Hv|exact Ew].
  - right. split; [rewrite dbind_lift; cbn beta iota; rewrite E; reflexivity|exact C].
Qed.
(*@ Theorem C72_solid : Without equalities, and for two different dimensions, the projection is never flat: the polygon is drawn. *)
Lemma plot_solid np hull2 p m n d0 d1 : exact_np np -> halfspaces_ok np -> wf p m 0 n -> (2 <= n)%nat -> fresh p = p ->
  bounded_set (in_poly p) -> (exists c, ball_in p c tol7) -> (forall i, (i < m)%nat -> exists x, in_poly p x /\ dot (row (pA p) i) x < nth i (pb p) 0) ->
  (d0 < n)%nat -> (d1 < n)%nat -> d0 <> d1 ->
  (forall V p', get_vertices np p = (Ok (Some V), p') -> let pts := map (fun v => [nth d0 v 0; nth d1 v 0]) V in hull2_ok pts (hull2 pts)) ->
  exists path p', poly_plot np hull2 [d0; d1] p = ([Patch path; XLabel (d0 + 1); YLabel (d1 + 1)], Ok p') /\
     goes_around path (fun y => exists x, in_poly p x /\ y = [nth d0 x 0; nth d1 x 0]) /\
     Forall (fun w => exists v, extreme (in_poly p) v /\ w = [nth d0 v 0; nth d1 v 0]) path.
Proof.
  intros Hnp Hhs W Hn Fr B HB HI H0 H1 Hd HK. destruct (plot_polytope np hull2 p m 0 n d0 d1 Hnp Hhs W (or_introl eq_refl) Hn Fr B HB HI H0 H1 HK) as [H|(_ & a & d & La & Na & Ha)]; [exact H|exfalso].
  destruct HB as (c & Lc & Ec & Hc). assert (NC : ncols (pA p) = n) by apply W. rewrite NC in *. pose proof tol7_pos as Tp. assert (EQ : forall y, eq_holds (pC p) (pd p) y). { intros y. unfold eq_holds. assert (R0 : length (rows (pC p)) = 0%nat) by apply W. assert (L0 : length (pd p) = 0%nat) by apply W. destruct (rows (pC p)); [|discriminate R0]. destruct (pd p); [|discriminate L0]. constructor. }
  assert (IP : in_poly p c). { apply Hc; auto. unfold dist2. rewrite vsub_self, dot_zeros_l. apply Rle_0_sqr. }
  assert (IM : forall k, (k < n)%nat -> in_poly p (vadd c (vscale tol7 (unit n k)))).
  { intros k Hk. apply Hc; [len|apply EQ|]. unfold dist2. replace (vsub (vadd c (vscale tol7 (unit n k))) c) with (vscale tol7 (unit n k)).
    - rewrite dot_vscale_l, dot_unit by (auto; len). rewrite nth_vscale, nth_unit by assumption. rewrite Nat.eqb_refl. lra.
    - apply vec_ext; [len|]. intros i Hi. rewrite nth_vsub, nth_vadd by len. ring. }
  assert (NK : forall k j, (k < n)%nat -> (j < n)%nat -> nth j (vadd c (vscale tol7 (unit n k))) 0 = nth j c 0 + tol7 * (if Nat.eqb j k then 1 else 0)).
  { intros k j Hk Hj. rewrite nth_vadd, nth_vscale by len. rewrite nth_unit by exact Hj. reflexivity. }
  pose proof (Ha c IP) as D0. pose proof (Ha _ (IM d0 H0)) as D1. pose proof (Ha _ (IM d1 H1)) as D2. rewrite !NK in D1, D2 by assumption. rewrite !Nat.eqb_refl in D1, D2.
  destruct (Nat.eqb_spec d1 d0); [congruence|]. destruct (Nat.eqb_spec d0 d1); [congruence|]. destruct a as [|a0 [|a1 [|]]]; try discriminate La. unfold dot in D0, D1, D2. cbn in D0, D1, D2. apply Na.
  assert (T0 : a0 * tol7 = 0) by lra. assert (T1 : a1 * tol7 = 0) by lra. apply Rmult_integral in T0. apply Rmult_integral in T1. cbn. f_equal; [destruct T0; lra|f_equal; destruct T1; lra].
Qed.
Lemma plot_none np hull2 p d0 d1 : fst (get_vertices np p) = Ok None -> exists p', poly_plot np hull2 [d0; d1] p = ([Message], Ok p').
Proof. intros H. unfold poly_plot. cbn [length Nat.eqb negb]. destruct (get_vertices np p) as (r, p'). cbn in H. subst r. exists p'. reflexivity. Qed.
(*@ Theorem C72_thin_refuted : A non-empty polytope without a ball of radius tol is not drawn; only the message for unbounded or empty polyhedra is printed. *)
Lemma plot_thin np hull2 p m me n d0 d1 : exact_np np -> wf p m me n -> good_eqs p me n -> (me < n)%nat -> fresh p = p ->
  (exists x, in_poly p x) -> bounded_set (in_poly p) -> (forall c, ~ ball_in p c tol7) -> exists p', poly_plot np hull2 [d0; d1] p = ([Message], Ok p').
Proof. intros Hnp W G Lt Fr HX B HB. apply plot_none. apply (thin_vertices np p m me n); assumption. Qed.
(*@ Theorem C72_empty : An empty polyhedron none of whose inequalities is constant on the solutions of its equalities is not drawn either. *)
Lemma plot_empty np hull2 p m me n d0 d1 : exact_np np -> wf p m me n -> good_eqs p me n -> fresh p = p -> (forall x, ~ in_poly p x) ->
  (forall i, (i < m)%nat -> exists x y, length x = n /\ length y = n /\ eq_holds (pC p) (pd p) x /\ eq_holds (pC p) (pd p) y /\ dot (row (pA p) i) x <> dot (row (pA p) i) y) ->
  exists p', poly_plot np hull2 [d0; d1] p = ([Message], Ok p').
Proof. intros Hnp W G Fr HX HI. apply plot_none. apply (empty_vertices np p m me n); assumption. Qed.
(*@ Theorem C72_errors : A number of dimensions other than two raises ValueError; an error in computing the vertices is passed on; an index out of range raises IndexError. *)
Lemma plot_poly_errors np hull2 p : (forall dims, length dims <> 2%nat -> poly_plot np hull2 dims p = ([], Err ValueError)) /\
  (forall d0 d1 e, fst (get_vertices np p) = Err e -> poly_plot np hull2 [d0; d1] p = ([], Err e)) /\
  (forall d0 d1 v V, fst (get_vertices np p) = Ok (Some (v :: V)) -> (length v <= d0)%nat -> poly_plot np hull2 [d0; d1] p = ([], Err IndexError)).
Proof.
  split; [|split].
  - intros dims Hd. unfold poly_plot. apply Nat.eqb_neq in Hd. rewrite Hd. reflexivity.
  - intros d0 d1 e H. unfold poly_plot. cbn [length Nat.eqb negb]. destruct (get_vertices np p) as (r, p'). cbn in H. subst r. reflexivity.
  - intros d0 d1 v V H Hd. unfold poly_plot. cbn [length Nat.eqb negb]. destruct (get_vertices np p) as (r, p'). cbn in H. subst r. rewrite dbind_lift. cbn beta iota. unfold polygon. cbn [mapM]. unfold pick at 1. cbn [mapM]. unfold getv at 1. apply Nat.ltb_ge in Hd. rewrite Hd. reflexivity.
Qed.
(*@ Theorem C72_zero_row_refuted : The literal claim (every bounded non-empty polyhedron is drawn) fails with QhullError for the unit square with the further inequality 0 x <= 0. *)
Lemma plot_zero_row_refuted rnd hull2 : exists p, wf p 5 0 2 /\ fresh p = p /\ (forall a b, in_poly p [a; b] <-> 0 <= a <= 1 /\ 0 <= b <= 1) /\
  poly_plot (np_vert rnd) hull2 [0; 1]%nat p = ([], Err QhullError).
Proof. destruct (zero_row_vertices_refuted rnd) as (p & W & Fr & H & E). exists p. split; [exact W|]. split; [exact Fr|]. split; [exact H|]. apply plot_poly_errors, E. Qed.
(** the corners of the unit square, in counterclockwise order *)
Fixpoint find_vec (v : vec) (l : list vec) : nat := match l with [] => 0%nat | w :: l' => if list_eq_dec Req_EM_T v w then 0%nat else S (find_vec v l') end.
Lemma find_vec_ok v l : In v l -> (find_vec v l < length l)%nat /\ nth (find_vec v l) l [] = v.
Proof.
  induction l as [|w l IH]; [intros []|]. intros H. cbn. destruct (list_eq_dec Req_EM_T v w) as [->|N]; [split; [lia|reflexivity]|]. destruct H as [->|H]; [congruence|]. destruct (IH H) as (I1 & I2). split; [lia|exact I2].
Qed.
Definition corners : list vec := [[0; 0]; [1; 0]; [1; 1]; [0; 1]].
Definition hull2_square (pts : list vec) : res (list nat) := Ok (map (fun v => find_vec v pts) corners).
Lemma square_around : goes_around (corners ++ [[0; 0]]) (fun y => exists a b, y = [a; b] /\ 0 <= a <= 1 /\ 0 <= b <= 1).
Proof.
  split; [split; [cbn; lia|reflexivity]|]. split; [repeat constructor|]. intros x Lx. destruct x as [|a [|b [|]]]; try discriminate Lx. split.
  - intros (a' & b' & E & Ha & Hb). injection E as -> ->. intros u v (k & Hk & -> & ->). cbn in Hk. unfold left_of. destruct k as [|[|[|[|]]]]; [| | | |lia]; cbn; lra.
  - intros H. exists a, b. split; [reflexivity|]. pose proof (H [0; 0] [1; 0]) as H1. pose proof (H [1; 0] [1; 1]) as H2. pose proof (H [1; 1] [0; 1]) as H3. pose proof (H [0; 1] [0; 0]) as H4.
    assert (E1 : edge (corners ++ [[0; 0]]) [0; 0] [1; 0]) by (exists 0%nat; cbn; split; [lia|auto]). assert (E2 : edge (corners ++ [[0; 0]]) [1; 0] [1; 1]) by (exists 1%nat; cbn; split; [lia|auto]).
    assert (E3 : edge (corners ++ [[0; 0]]) [1; 1] [0; 1]) by (exists 2%nat; cbn; split; [lia|auto]). assert (E4 : edge (corners ++ [[0; 0]]) [0; 1] [0; 0]) by (exists 3%nat; cbn; split; [lia|auto]).
    specialize (H1 E1). specialize (H2 E2). specialize (H3 E3). specialize (H4 E4). unfold left_of in *. cbn in *. lra.
Qed.
(*@ Example C72_example : The square of C68_example, at height 2 in R^3, meets the hypotheses (with routines that meet the contracts); its plot in dimensions 0, 1 is the path (0,0), (1,0), (1,1), (0,1), (0,0). *)
Lemma plot_prism_example rnd : let np := np_vert rnd in
  let p := Poly (Mat 3 [[1; 0; 0]; [-1; 0; 0]; [0; 1; 0]; [0; -1; 0]]) [1; 0; 1; 0] (Mat 3 [[0; 0; 2]]) [4] None None None None None in
  (forall V p', get_vertices np p = (Ok (Some V), p') -> let pts := map (fun v => [nth 0 v 0; nth 1 v 0]) V in hull2_ok pts (hull2_square pts)) /\
  exists p', poly_plot np hull2_square [0; 1]%nat p = ([Patch [[0; 0]; [1; 0]; [1; 1]; [0; 1]; [0; 0]]; XLabel 1; YLabel 2], Ok p').
Proof.
  intros np p. destruct (prism_example rnd) as (V & p' & EV & HV). fold np in EV. fold p in EV.
  assert (IC : forall v, In v corners -> In v (map (pk 0 1) V)). { intros v Hv. apply in_map_iff. cbn in Hv. destruct Hv as [<-|[<-|[<-|[<-|[]]]]]; [exists [0; 0; 2]|exists [1; 0; 2]|exists [1; 1; 2]|exists [0; 1; 2]]; (split; [reflexivity|]); apply HV; cbn; auto. }
  assert (CI : forall v, In v (map (pk 0 1) V) -> In v corners). { intros v Hv. apply in_map_iff in Hv. destruct Hv as (w & <- & Hw). apply HV in Hw. cbn in Hw. cbn. destruct Hw as [<-|[<-|[<-|[<-|[]]]]]; cbn; auto. }
  assert (EN : forall v, In v corners -> nth (find_vec v (map (pk 0 1) V)) (map (pk 0 1) V) [] = v) by (intros v Hv; apply find_vec_ok, IC, Hv).
  assert (FV : Forall (fun i => (i < length (map (pk 0 1) V))%nat) (map (fun v => find_vec v (map (pk 0 1) V)) corners)). { apply Forall_forall. intros i Hi. apply in_map_iff in Hi. destruct Hi as (v & <- & Hv). apply find_vec_ok, IC, Hv. }
  assert (EM : map (fun i => nth i (map (pk 0 1) V) []) (map (fun v => find_vec v (map (pk 0 1) V)) corners) = corners). { rewrite map_map. rewrite <- (map_id corners) at 2. apply map_ext_in. intros v Hv. apply EN, Hv. }
  assert (FP : Forall (fun v => length v = 2%nat) (map (pk 0 1) V)) by (apply Forall_forall; intros w Hw; apply in_map_iff in Hw; destruct Hw as (v & <- & _); reflexivity).
  assert (SQ : forall x, length x = 2%nat -> ((exists a b, x = [a; b] /\ 0 <= a <= 1 /\ 0 <= b <= 1) <-> in_hull 2 (map (pk 0 1) V) x)).
  { intros x Lx. split.
    - intros (a & b & -> & Ha & Hb). replace [a; b] with (vadd (vscale a (vadd (vscale b [1; 1]) (vscale (1 - b) [1; 0]))) (vscale (1 - a) (vadd (vscale b [0; 1]) (vscale (1 - b) [0; 0])))) by (cbn; f_equal; [ring|f_equal; ring]).
      assert (HC : forall v, In v corners -> in_hull 2 (map (pk 0 1) V) v) by (intros v Hv; apply in_hull_pt; [exact FP|apply IC, Hv]). repeat apply in_hull_convex; auto; apply HC; cbn; auto.
    - intros Hx. destruct x as [|a [|b [|]]]; try discriminate Lx. exists a, b. split; [reflexivity|].
      assert (BD : forall g c, (forall v, In v corners -> dot g v <= c) -> dot g [a; b] <= c) by (intros g c Hg; apply (in_hull_max 2 (map (pk 0 1) V) g c _ FP); [intros v Hv; apply Hg, CI, Hv|exact Hx]).
      assert (B1 : dot [1; 0] [a; b] <= 1) by (apply BD; intros v Hv; cbn in Hv; destruct Hv as [<-|[<-|[<-|[<-|[]]]]]; unfold dot; cbn; lra).
      assert (B2 : dot [-1; 0] [a; b] <= 0) by (apply BD; intros v Hv; cbn in Hv; destruct Hv as [<-|[<-|[<-|[<-|[]]]]]; unfold dot; cbn; lra).
      assert (B3 : dot [0; 1] [a; b] <= 1) by (apply BD; intros v Hv; cbn in Hv; destruct Hv as [<-|[<-|[<-|[<-|[]]]]]; unfold dot; cbn; lra).
      assert (B4 : dot [0; -1] [a; b] <= 0) by (apply BD; intros v Hv; cbn in Hv; destruct Hv as [<-|[<-|[<-|[<-|[]]]]]; unfold dot; cbn; lra).
      unfold dot in B1, B2, B3, B4. cbn in B1, B2, B3, B4. lra. }
  assert (OK : hull2_ok (map (pk 0 1) V) (hull2_square (map (pk 0 1) V))).
  { split; [discriminate|]. split; [|split; [exact FV|]].
    - assert (ND : NoDup corners) by (repeat constructor; cbn; intros H; repeat (destruct H as [H|H]; [injection H; intros; lra|]); destruct H).
      assert (INJ : forall v w, In v corners -> In w corners -> find_vec v (map (pk 0 1) V) = find_vec w (map (pk 0 1) V) -> v = w) by (intros v w Hv Hw E; rewrite <- (EN v Hv), <- (EN w Hw), E; reflexivity).
      revert ND INJ. generalize corners. clear. intros l ND. induction ND as [|v l NI ND IH]; intros INJ; [constructor|]. cbn. constructor; [|apply IH; intros; apply INJ; cbn; auto]. intros Hin. apply in_map_iff in Hin. destruct Hin as (w & E & Hw). apply NI. rewrite (INJ v w); [exact Hw|cbn; auto|cbn; auto|symmetry; exact E].
    - rewrite EM. cbn [hd corners map]. rewrite (EN [0; 0]) by (left; reflexivity). apply (goes_around_ext _ _ _ SQ). exact square_around. }
  split.
  - intros V2 p2 E2. rewrite EV in E2. injection E2 as <- _. exact OK.
  - exists p'. unfold poly_plot. cbn [length Nat.eqb negb]. rewrite EV, dbind_lift. cbn beta iota. unfold polygon. assert (NV : V <> []) by (intros ->; destruct (proj2 (HV [0; 0; 2]) ltac:(left; reflexivity))). destruct V as [|v0 V'] eqn:EVV; [congruence|]. rewrite <- EVV in *.
    assert (LV : Forall (fun v => length v = 3%nat) V) by (apply Forall_forall; intros v Hv; apply HV in Hv; cbn in Hv; destruct Hv as [<-|[<-|[<-|[<-|[]]]]]; reflexivity).
    rewrite (picks_ok 0 1 3 V LV) by lia. cbn [bind]. unfold hull2_square. cbn [bind]. rewrite (getls_ok _ _ FV). rewrite EM. reflexivity.
Qed.
