(** Floor plans: closedness and volume. *)
From Coq Require Import Ascii String Reals List Bool Arith Lia Lra Permutation.
From Verif Require Import Prelude TreeModel IoModel VecModel VecProofs GeomModel GeomSpec GeomProofs1 GeomProofs2 GeomProofs3 GeomProofs4 GeomProofs5 TriModel TriSpec TriProofs TriProofs2 TriProofs3 PolyModel PolySpec PolyProofs1 PolyProofs2 SolidModel SolidSpec SolidProofs2 PlanSpec PlanProofs1 PlanProofs2 PlanProofs3.
Import ListNotations.
Local Open Scope R_scope.

Definition wall_pts (w : wall_t) : list vec := p_pts (snd (snd w)).
Lemma drawn_plane plan : in_plane ez 0 (drawn plan).
Proof. intros p I; unfold drawn in I; apply in_map_iff in I; destruct I as (xy & <- & _); rewrite dot_ez; auto. Qed.
Lemma told_rev l : told_apart l -> told_apart (rev l).
Proof. intros T p q A B. apply T; apply in_rev; auto. Qed.
Section Facts.
Context (plan : list (R * R)) (h : R) (tr : vec) (phi : R) (name : str) (names : option (list str)) (fn cn rf rc : str).
Notation FP := (floor_plan plan h tr phi name names fn cn rf rc).
Notation good := (first_convex (drawn plan) /\ last_convex (drawn plan)).
Lemma plan_facts ws : FP = Ok ws -> exists wn t fp cp walls vf vc, plan_wall_names (length plan) names = Ok wn /\ move_used tr t /\
  let fl := corners plan 0 t phi in let ce := corners plan h t phi in let up := V 0 0 h in let S := vz (vector_area2 (drawn plan)) in
  ws = walls ++ [(fn, fp); (cn, cp)] /\ NoDup (map fst ws) /\ map fst walls = wn /\ map (fun w => fst (snd w)) walls = wn /\
  (3 <= length plan)%nat /\ S <> 0 /\ h <> 0 /\ made_from (snd fp) /\ made_from (snd cp) /\
  (vf = 1 \/ vf = -1) /\ (vc = 1 \/ vc = -1) /\ p_vn (snd fp) = V 0 0 vf /\ p_vn (snd cp) = V 0 0 vc /\
  0 < vf * dot ez (vector_area2 (p_pts (snd fp))) /\ 0 < vc * dot ez (vector_area2 (p_pts (snd cp))) /\
  (0 < vf * S -> p_pts (snd fp) = fl) /\ (vf * S < 0 -> p_pts (snd fp) = rev fl) /\ (0 < vc * S -> p_pts (snd cp) = ce) /\ (vc * S < 0 -> p_pts (snd cp) = rev ce) /\
  ((fst fp = fn /\ fst cp = rc) \/ (fst fp = rf /\ fst cp = cn)) /\ ((good /\ vf = -1 /\ vc = 1) \/ (~ good /\ vf = vc)) /\
  Forall2 (fun e w => make_polygon (wall_pts w) None None = Ok (snd (snd w)) /\ (wall_pts w = wall_over up e \/ wall_pts w = rev (wall_over up e)) /\
    (told_apart fl -> NoDup fl -> (0 < vf * S -> wall_pts w = rev (wall_over up e)) /\ (vf * S < 0 -> wall_pts w = wall_over up e))) (cyc_pairs fl) walls.
Proof.
  intros H. destruct (plan_inv _ _ _ _ _ _ _ _ _ _ _ H) as (wn & t & (n1, fp) & (n2, cp) & walls & W & Mv & Lf & Lc & Ew & ND & N1 & N2 & Fo).
  destruct (level_spec _ _ _ (-1) _ _ _ (or_intror eq_refl) (corners_plane plan 0 t phi) Lf) as (Mf & Len & SN & vf & Sf & Ef & Af & Kf & Rf & Cf).
  destruct (level_spec _ _ _ 1 _ _ _ (or_introl eq_refl) (corners_plane plan h t phi) Lc) as (Mc & _ & _ & vc & Sc & Ec & Ac & Kc & Rc & Cc).
  rewrite corners_area, corners_turn in *. rewrite corners_convex, corners_last in *. set (S := vz (vector_area2 (drawn plan))) in *. set (t0 := turn0 ez (drawn plan)) in *.
  exists wn, t, (n1, fp), (n2, cp), walls, vf, vc. split; auto. split; auto. cbn zeta. fold S. split; auto. split; auto. split; auto. split; auto. split; [unfold corners in Len; rewrite map_length in Len; auto|]. split; auto.
  cbn [fst snd] in *. set (fl := corners plan 0 t phi) in *.
  assert (Hh : h <> 0). { destruct (cyc_pairs fl) as [|(f, g) es] eqn:Ec'; [apply (f_equal (@length _)) in Ec'; rewrite cyc_pairs_length in Ec'; simpl in Ec'; lia|]. inversion Fo as [|? w ? ? (a & b & wp & M & _)]; subst. intros E. destruct (made_normal _ _ M) as (p0 & p1 & r & Eq & N). injection Eq as <- <- <-. cbn [wall_over last fst snd] in N. apply normal_some in N. destruct N as (N & _). match type of N with _ < norm ?x => assert (Z : x = vzero) by (rewrite E; clear; dvec f; dvec g; vunf; f_equal; ring) end. rewrite Z, (proj2 (norm_zero vzero) eq_refl) in N. lra. }
  repeat (split; [auto; fail|]).
  split. { destruct Cf as [(T0 & -> & ->)|(T0 & -> & _)], Cc as [(T1 & -> & ->)|(T1 & -> & _)]; auto; lra. }
  split. { destruct Cf as [(T0 & -> & ->)|(T0 & -> & Cf)], Cc as [(T1 & -> & ->)|(T1 & -> & Cc)]; try lra.
    - destruct Cc as [(A & B & ->)|(A & ->)]; [left|right]; auto.
    - destruct Cf as [(A & B & ->)|(A & ->)]; [left|right]; auto. split; auto. lra. }
  refine (Forall2_weaken _ _ _ _ Fo _). intros (f, g) w I (a & b & wp & M & O). pose proof (cyc_members _ _ I) as (If & Ig). cbn [fst snd] in If, Ig.
  pose proof (corners_plane plan 0 t phi f If) as Zf. pose proof (corners_plane plan 0 t phi g Ig) as Zg. rewrite dot_ez, Rplus_0_l in Zf, Zg.
  destruct (orient_spec _ _ _ _ _ _ _ _ _ M Zf Zg O) as (_ & _ & Mk & Or & Ap). split; auto. split; auto. intros T Nd. split; intros X.
  - rewrite (Kf X) in Ap. apply Ap; auto.
  - rewrite (Rf X) in Ap. apply Ap; [apply told_rev; auto|apply NoDup_rev; auto|rewrite rev_length; auto|]. apply (Permutation_in (g, f) (Permutation_sym (cyc_pairs_rev fl))). apply in_map_iff. exists (f, g). auto.
Qed.
End Facts.

(** Closedness. *)
Notation sw := (fun e : vec * vec => (snd e, fst e)).
Lemma closed_perm l l' : Permutation l l' -> closed_edges l -> closed_edges l'.
Proof. intros P C. unfold closed_edges in *. rewrite <- P. auto. Qed.
Lemma closed_swap l : closed_edges (map sw l) <-> closed_edges l.
Proof.
  unfold closed_edges. assert (E : map sw (map sw l) = l) by (rewrite map_map; rewrite <- map_id; apply map_ext; intros (a, b); auto). rewrite E. split; intros; symmetry; auto.
Qed.
Lemma concat4 {A B} (f1 f2 f3 f4 : A -> B) l : Permutation (concat (map (fun e => [f1 e; f2 e; f3 e; f4 e]) l)) (map f1 l ++ map f2 l ++ map f3 l ++ map f4 l).
Proof.
  induction l as [|e l IH]; cbn [map concat app]; auto. constructor. apply Permutation_cons_app. rewrite app_assoc. apply Permutation_cons_app. rewrite <- !app_assoc. rewrite (app_assoc (map f1 l)), (app_assoc _ (map f3 l)). apply Permutation_cons_app. rewrite <- !app_assoc. auto.
Qed.
Lemma surf_perm (a b : list (list vec)) : Forall2 (fun x y => Permutation (cyc_pairs x) (cyc_pairs y)) a b -> Permutation (concat (map cyc_pairs a)) (concat (map cyc_pairs b)).
Proof. intros H. induction H; cbn [map concat]; auto. apply Permutation_app; auto. Qed.
Lemma concat_rev (l : list (list vec)) : Permutation (concat (map cyc_pairs (map (@rev _) l))) (map sw (concat (map cyc_pairs l))).
Proof. induction l as [|x l IH]; cbn [map concat]; auto. rewrite map_app. apply Permutation_app; auto. apply cyc_pairs_rev. Qed.
Lemma closed_rev l : closed_surface (map (@rev _) l) <-> closed_surface l.
Proof.
  unfold closed_surface. split; intros H; [apply closed_swap; apply (closed_perm _ _ (concat_rev l)); auto|]. apply (closed_perm _ _ (Permutation_sym (concat_rev l))). apply closed_swap. auto.
Qed.
Definition edge_dec (a b : vec * vec) : {a = b} + {a <> b}.
Proof. destruct a as (a1, a2), b as (b1, b2). destruct (vec_eq_dec a1 b1) as [->|N]; [|right; congruence]. destruct (vec_eq_dec a2 b2) as [->|N]; [left; auto|right; congruence]. Defined.
Section Prism.
Context (fl : list vec) (h z0 : R) (Z : in_plane ez z0 fl) (Hh : h <> 0) (ND : NoDup fl) (L : (3 <= length fl)%nat).
Notation up := (V 0 0 h).
Notation lift := (fun p => vadd p up).
Notation E := (cyc_pairs fl).
Notation f1 := (fun e : vec * vec => (lift (fst e), lift (snd e))).
Notation f2 := (fun e : vec * vec => (lift (snd e), snd e)).
Notation f3 := (fun e : vec * vec => (snd e, fst e)).
Notation f4 := (fun e : vec * vec => (fst e, lift (fst e))).
Lemma wall_edges : map cyc_pairs (map (fun e => rev (wall_over up e)) E) = map (fun e => [f1 e; f2 e; f3 e; f4 e]) E.
Proof. rewrite map_map. apply map_ext. intros (a, b). reflexivity. Qed.
Lemma prism_edges C : Permutation (concat (map cyc_pairs (map (fun e => rev (wall_over up e)) E ++ [fl; C]))) ((map f1 E ++ map f2 E ++ map f3 E ++ map f4 E) ++ E ++ cyc_pairs C).
Proof. rewrite map_app, concat_app. apply Permutation_app; [rewrite wall_edges; apply concat4|]. cbn [map concat]. rewrite app_nil_r. auto. Qed.
Lemma prism_closed : closed_surface (map (fun e => rev (wall_over up e)) E ++ [fl; rev (map lift fl)]).
Proof.
  unfold closed_surface. apply (closed_perm _ _ (Permutation_sym (prism_edges _))).
  set (A := map f1 E). set (B := map f2 E). set (D := map f4 E). set (G := cyc_pairs (rev (map lift fl))).
  assert (HG : Permutation G (map sw A)). { unfold G. rewrite cyc_pairs_rev, cyc_pairs_map. auto. }
  assert (HD : Permutation D (map sw B)). { unfold D, B. rewrite map_map. cbn [fst snd]. rewrite <- (map_map fst (fun p => (p, vadd p up))), <- (map_map snd (fun p => (p, vadd p up))). apply Permutation_map. apply cyc_fst_snd. }
  assert (SS : forall l : list (vec * vec), map sw (map sw l) = l) by (intros l; rewrite map_map; rewrite <- map_id; apply map_ext; intros (a, b); auto).
  unfold closed_edges. rewrite !map_app. rewrite HG, HD. rewrite !SS. set (SA := map sw A). set (SB := map sw B). set (SE := map sw E).
  clearbody A B D SA SB SE. clear.
  set (X := E) in *. clearbody X. clear. apply (Permutation_count_occ edge_dec). intros x. rewrite !count_occ_app. lia.
Qed.

Lemma cyc_index {A} (l : list A) x y : In (x, y) (cyc_pairs l) -> exists i, (i < length l)%nat /\ nth_error l i = Some x /\ nth_error l ((i + 1) mod length l) = Some y.
Proof.
  intros I. apply In_nth_error in I. destruct I as (i & I). assert (Li : (i < length l)%nat) by (rewrite <- cyc_pairs_length; apply nth_error_Some; congruence). exists i. split; auto.
  assert (Lm : ((i + 1) mod length l < length l)%nat) by (apply Nat.mod_upper_bound; lia).
  destruct (nth_error l i) as [a|] eqn:Ea; [|apply nth_error_None in Ea; lia]. destruct (nth_error l ((i + 1) mod length l)) as [b|] eqn:Eb; [|apply nth_error_None in Eb; lia].
  rewrite (cyc_pairs_nth l i a b Ea Eb) in I. injection I as -> ->. auto.
Qed.
Lemma cyc_antisym {A} (l : list A) x y : NoDup l -> (3 <= length l)%nat -> In (x, y) (cyc_pairs l) -> In (y, x) (cyc_pairs l) -> False.
Proof.
  intros N Le I J. apply cyc_index in I, J. destruct I as (i & Li & Ei & Ei'), J as (j & Lj & Ej & Ej'). rewrite NoDup_nth_error in N.
  assert (j = (i + 1) mod length l)%nat by (apply N; auto; congruence). assert (i = (j + 1) mod length l)%nat by (apply N; auto; congruence).
  destruct (Nat.eq_dec (i + 1) (length l)) as [Q|Q].
  - rewrite Q, Nat.mod_same in H by lia. subst j. rewrite Nat.mod_small in H0 by lia. lia.
  - rewrite Nat.mod_small in H by lia. subst j. destruct (Nat.eq_dec (i + 1 + 1) (length l)) as [Q'|Q']; [rewrite Q', Nat.mod_same in H0 by lia|rewrite Nat.mod_small in H0 by lia]; lia.
Qed.
Lemma prism_open : ~ closed_surface (map (fun e => rev (wall_over up e)) E ++ [fl; map lift fl]).
Proof.
  intros C. unfold closed_surface in C. apply (closed_perm _ _ (prism_edges _)) in C. destruct E as [|(a, b) es] eqn:Ee; [apply (f_equal (@length _)) in Ee; rewrite cyc_pairs_length in Ee; simpl in Ee; lia|]. rewrite <- Ee in C.
  assert (Iab : In (a, b) E) by (rewrite Ee; simpl; auto). clear Ee. unfold closed_edges in C.
  assert (I : In (lift b, lift a) (map sw ((map f1 E ++ map f2 E ++ map f3 E ++ map f4 E) ++ E ++ cyc_pairs (map lift fl)))).
  { apply in_map_iff. exists (lift a, lift b). split; auto. apply in_or_app. left. apply in_or_app. left. apply in_map_iff. exists (a, b). auto. }
  apply (Permutation_in _ (Permutation_sym C)) in I. pose proof (cyc_members _ _ Iab) as (Ia & Ib). cbn [fst snd] in Ia, Ib. assert (Za := Z _ Ia). assert (Zb := Z _ Ib). rewrite dot_ez in Za, Zb.
  assert (ZZ : forall e, In e E -> vz (fst e) = z0 /\ vz (snd e) = z0) by (intros e Ie; apply cyc_members in Ie; rewrite <- !dot_ez; split; apply Z; tauto).
  assert (Inj : forall p q, vadd p up = vadd q up -> p = q) by (intros p q X; dvec p; dvec q; vunf; injection X as X1 X2 X3; f_equal; lra).
  assert (ZV : forall p, vz (vadd p up) = vz p + h) by (intros p; dvec p; auto).
  repeat (apply in_app_or in I; destruct I as [I|I]); try (apply in_map_iff in I; destruct I as (e & X & Ie)).
  - pose proof (Inj _ _ (f_equal fst X)) as X1. pose proof (Inj _ _ (f_equal snd X)) as X2. subst. destruct e as (x, y). cbn [fst snd] in *. apply (cyc_antisym fl x y); auto.
  - apply (f_equal snd) in X. cbn [snd] in X. apply (f_equal vz) in X. rewrite ZV in X. destruct (ZZ e Ie). lra.
  - apply (f_equal snd) in X. cbn [snd] in X. apply (f_equal vz) in X. rewrite ZV in X. destruct (ZZ e Ie). lra.
  - apply (f_equal fst) in X. cbn [fst] in X. apply (f_equal vz) in X. rewrite ZV in X. destruct (ZZ e Ie). lra.
  - destruct (ZZ _ I) as (X & _). cbn [fst] in X. rewrite ZV in X. lra.
  - rewrite cyc_pairs_map in I. apply in_map_iff in I. destruct I as ((x, y) & X & Ie). pose proof (Inj _ _ (f_equal fst X)) as X1. pose proof (Inj _ _ (f_equal snd X)) as X2. cbn [fst snd] in X1, X2. subst. apply (cyc_antisym fl a b); auto.
Qed.
End Prism.

(** Flux of the faces. *)
Lemma para_flux a b c d p : make_polygon [a; b; c; d] None None = Ok p -> vsub c b = vsub d a ->
  flat_face (p_pts p, p_tri p, p_vn p) (dot (p_vn p) a) /\ dot (p_vn p) a * polygon_area (p_pts p) (p_vn p) = dot a (cross (vsub b a) (vsub d a)) /\ length (p_tri p) = 2%nat.
Proof.
  intros H E. destruct (para_made _ _ _ _ _ H E) as (Ep & U & k & Kp & Ck). destruct (made_triangulated _ _ H) as (T & _ & Le).
  assert (Pb : dot (p_vn p) (vsub b a) = 0). { assert (X : k * dot (p_vn p) (vsub b a) = 0) by (rewrite <- dot_smul_l, <- Ck; clear; dvec a; dvec b; dvec d; vunf; ring). nra. }
  assert (Pd : dot (p_vn p) (vsub d a) = 0). { assert (X : k * dot (p_vn p) (vsub d a) = 0) by (rewrite <- dot_smul_l, <- Ck; clear; dvec a; dvec b; dvec d; vunf; ring). nra. }
  assert (Ec : c = vadd b (vsub d a)) by (rewrite <- E; clear; dvec b; dvec c; vunf; f_equal; ring).
  split; [split; auto; split|].
  - intros q I. rewrite Ep in I. rewrite dot_diff_r in Pb, Pd. destruct I as [<-|[<-|[<-|[<-|[]]]]]; auto; try lra. rewrite Ec, dot_vadd_r, dot_diff_r. lra.
  - exists [a; b; c; d]. auto.
  - split.
    + rewrite polygon_area_eq by (rewrite Ep; simpl; lia). assert (A : vector_area2 (p_pts p) = smul 2 (cross (vsub b a) (vsub d a))).
      { rewrite Ep, Ec. clear. unfold vector_area2, cyc_pairs. cbn [app combine map fold_right fst snd]. dvec a; dvec b; dvec d; vunf; f_equal; ring. }
      rewrite A, Ck. rewrite !dot_smul_l. unfold unit in U. rewrite U. rewrite Rabs_pos_eq by lra. rewrite (dot_comm a), dot_smul_l. field.
    + apply (tri_structure _ _ _ _ Le T).
Qed.
Lemma flux_app ps cs ps' cs' : length ps = length cs -> flux (ps ++ ps') (cs ++ cs') = flux ps cs + flux ps' cs'.
Proof. revert cs. induction ps as [|((pts, ts), vn) ps IH]; intros [|c cs] H; try discriminate; cbn [app flux]; [ring|]. rewrite IH by (injection H; auto). ring. Qed.
Lemma count_app ps ps' : triangle_count (ps ++ ps') = (triangle_count ps + triangle_count ps')%nat.
Proof. unfold triangle_count. induction ps; cbn [app fold_right]; auto. rewrite IHps. lia. Qed.
Lemma level_flux p v c n : made_from p -> (v = 1 \/ v = -1) -> p_vn p = V 0 0 v -> in_plane ez c (p_pts p) -> 0 < v * dot ez (vector_area2 (p_pts p)) -> length (p_pts p) = n ->
  flat_face (p_pts p, p_tri p, p_vn p) (v * c) /\ v * c * polygon_area (p_pts p) (p_vn p) = c * dot ez (vector_area2 (p_pts p)) / 2 /\ length (p_tri p) = (n - 2)%nat.
Proof.
  intros (pts0 & Le & T) Sv Ev P A Ln. assert (Dv : forall w, dot w (p_vn p) = v * dot ez w) by (intros w; rewrite Ev; unfold ez; dvec w; vunf; ring). assert (VV : v * v = 1) by (destruct Sv as [-> | ->]; ring).
  assert (L3 : length (p_pts p) = length pts0) by (destruct (tri_structure _ _ _ _ Le T) as ([Q|Q] & _); rewrite Q, ?rev_length; auto).
  split; [split; [|split]|split].
  - unfold unit. rewrite Dv, Ev, dot_ez. cbn [vz]. exact VV.
  - intros q I. rewrite dot_comm, Dv, (P q I). auto.
  - exists pts0. auto.
  - rewrite polygon_area_eq by lia. rewrite Dv, Rabs_pos_eq by lra. set (x := dot ez (vector_area2 (p_pts p))). transitivity (v * v * (c * x / 2)); [field|rewrite VV; field].
  - destruct (tri_structure _ _ _ _ Le T) as (_ & Lt & _). rewrite <- Ln, L3. exact Lt.
Qed.
Definition poly_of (w : wall_t) : list vec * list tri * vec := (p_pts (snd (snd w)), p_tri (snd (snd w)), p_vn (snd (snd w))).
Lemma walls_flux fl h sgn walls : (sgn = 1 \/ sgn = -1) -> Forall2 (fun e w => make_polygon (wall_pts w) None None = Ok (snd (snd w)) /\ (sgn = 1 -> wall_pts w = wall_over (V 0 0 h) e) /\ (sgn = -1 -> wall_pts w = rev (wall_over (V 0 0 h) e))) fl walls ->
  exists cs, Forall2 flat_face (map poly_of walls) cs /\ flux (map poly_of walls) cs = sgn * h * fold_right Rplus 0 (map (fun e => vz (cross (fst e) (snd e))) fl) /\ triangle_count (map poly_of walls) = (2 * length fl)%nat.
Proof.
  intros Sg H. induction H as [|(f, g) w es walls (M & K1 & K2) H (cs & F & Fx & Tc)]; [exists []; split; [constructor|]; split; [cbn; ring|auto]|].
  assert (Q : exists c, flat_face (poly_of w) c /\ c * polygon_area (wall_pts w) (p_vn (snd (snd w))) = sgn * h * vz (cross f g) /\ length (p_tri (snd (snd w))) = 2%nat).
  { unfold wall_over in K1, K2. cbn [fst snd rev app] in K1, K2. destruct Sg as [-> | ->].
    - rewrite (K1 eq_refl) in M. assert (Pe : vsub (vadd g (V 0 0 h)) g = vsub (vadd f (V 0 0 h)) f) by (clear; dvec f; dvec g; vunf; f_equal; ring). destruct (para_flux _ _ _ _ _ M Pe) as (A & B & C). exists (dot (p_vn (snd (snd w))) f). split; auto. split; auto. unfold wall_pts. rewrite B. clear. dvec f; dvec g; vunf; ring.
    - rewrite (K2 eq_refl) in M. assert (Pe : vsub g (vadd g (V 0 0 h)) = vsub f (vadd f (V 0 0 h))) by (clear; dvec f; dvec g; vunf; f_equal; ring). destruct (para_flux _ _ _ _ _ M Pe) as (A & B & C). exists (dot (p_vn (snd (snd w))) (vadd f (V 0 0 h))). split; auto. split; auto. unfold wall_pts. rewrite B. clear. dvec f; dvec g; vunf; ring. }
  destruct Q as (c & Fc & Ec & Lc). exists (c :: cs). split; [constructor; auto|]. split.
  - change (flux (map poly_of (w :: walls)) (c :: cs)) with (c * polygon_area (wall_pts w) (p_vn (snd (snd w))) + flux (map poly_of walls) cs). rewrite Ec, Fx. cbn [map fold_right fst snd]. ring.
  - change (triangle_count (map poly_of (w :: walls))) with (length (p_tri (snd (snd w))) + triangle_count (map poly_of walls))%nat. rewrite Lc, Tc. cbn [length]. lia.
Qed.

(** The three theorems about successful calls. *)
Section Result.
Context (plan : list (R * R)) (h : R) (tr : vec) (phi : R) (name : str) (names : option (list str)) (fn cn rf rc : str) (ws : list wall_t).
Context (H : floor_plan plan h tr phi name names fn cn rf rc = Ok ws).
Notation good := (first_convex (drawn plan) /\ last_convex (drawn plan)).
Notation S := (vz (vector_area2 (drawn plan))).
Lemma plan_structure : exists wn t walls F C, plan_wall_names (length plan) names = Ok wn /\ move_used tr t /\
  (3 <= length plan)%nat /\ map fst ws = wn ++ [fn; cn] /\ NoDup (map fst ws) /\ outlines ws = walls ++ [F; C] /\
  Forall2 (fun e w => w = wall_over (V 0 0 h) e \/ w = rev (wall_over (V 0 0 h) e)) (cyc_pairs (corners plan 0 t phi)) walls /\
  (F = corners plan 0 t phi \/ F = rev (corners plan 0 t phi)) /\ (C = corners plan h t phi \/ C = rev (corners plan h t phi)) /\
  (polygon_names ws = wn ++ [fn; rc] \/ polygon_names ws = wn ++ [rf; cn]).
Proof.
  destruct (plan_facts _ _ _ _ _ _ _ _ _ _ _ H) as (wn & t & fp & cp & walls & vf & vc & W & Mv & Ew & ND & N1 & N2 & Le & SN & Hh & _ & _ & Sf & Sc & _ & _ & _ & _ & K1 & K2 & K3 & K4 & Nm & _ & Fo).
  exists wn, t, (map wall_pts walls), (p_pts (snd fp)), (p_pts (snd cp)). split; auto. split; auto. split; auto. subst ws.
  split; [rewrite map_app, N1; auto|]. split; auto. split; [unfold outlines; rewrite map_app; auto|].
  split. { clear - Fo. induction Fo as [|e w es walls (_ & A & _)]; cbn [map]; constructor; auto. }
  split; [destruct (Rlt_dec 0 (vf * S)) as [X|X]; [auto|right; apply K2; destruct Sf as [-> | ->]; lra]|].
  split; [destruct (Rlt_dec 0 (vc * S)) as [X|X]; [auto|right; apply K4; destruct Sc as [-> | ->]; lra]|].
  unfold polygon_names. rewrite map_app, N2. cbn [map fst snd]. destruct Nm as [(-> & ->)|(-> & ->)]; auto.
Qed.
Lemma plan_closed t : move_used tr t -> told_apart (corners plan 0 t phi) -> NoDup (corners plan 0 t phi) ->
  (closed_surface (outlines ws) <-> good) /\ (good -> exists fp cp, ws = firstn (length plan) ws ++ [(fn, fp); (cn, cp)] /\ p_vn (snd fp) = V 0 0 (-1) /\ p_vn (snd cp) = V 0 0 1).
Proof.
  intros Mv' T Nd. destruct (plan_facts _ _ _ _ _ _ _ _ _ _ _ H) as (wn & t' & fp & cp & walls & vf & vc & W & Mv & Ew & ND & N1 & N2 & Le & SN & Hh & _ & _ & Sf & Sc & Ef & Ec & _ & _ & K1 & K2 & K3 & K4 & Nm & G & Fo).
  assert (t' = t) as -> by (destruct Mv as [(A & ->)|(A & ->)], Mv' as [(B & ->)|(B & ->)]; auto; contradiction). set (fl := corners plan 0 t phi) in *. rewrite ceiling_up in K3, K4. fold fl in K3, K4.
  assert (Lf : (3 <= length fl)%nat) by (unfold fl, corners; rewrite map_length; auto). assert (Pl : in_plane ez (vz t) fl) by (intros p I; rewrite (corners_plane plan 0 t phi p I); ring).
  assert (Ow : outlines ws = map wall_pts walls ++ [p_pts (snd fp); p_pts (snd cp)]) by (subst ws; unfold outlines; rewrite map_app; auto).
  assert (Wl : (0 < vf * S -> map wall_pts walls = map (fun e => rev (wall_over (V 0 0 h) e)) (cyc_pairs fl)) /\ (vf * S < 0 -> map wall_pts walls = map (wall_over (V 0 0 h)) (cyc_pairs fl))).
  { split; intros X; [apply Forall2_map_eq|apply Forall2_map_eq]; (refine (Forall2_weaken _ _ _ _ Fo _); intros e w _ (_ & _ & A); apply A; auto). }
  split.
  - assert (Cv : vf * S <> 0) by (destruct Sf as [-> | ->]; lra). destruct (Rlt_dec 0 (vf * S)) as [X|X]; [|assert (X' : vf * S < 0) by lra].
    + rewrite Ow, (proj1 Wl X), (K1 X). destruct G as [(Gd & -> & ->)|(Gd & <-)].
      * rewrite K4 by lra. split; [intros _; auto|intros _]. apply prism_closed.
      * rewrite K3 by auto. split; [|tauto]. intros C. exfalso. exact (prism_open fl h (vz t) Pl Hh Nd Lf C).
    + rewrite Ow, (proj2 Wl X'), (K2 X'). assert (Rw : forall C, map (wall_over (V 0 0 h)) (cyc_pairs fl) ++ [rev fl; C] = map (@rev _) (map (fun e => rev (wall_over (V 0 0 h) e)) (cyc_pairs fl) ++ [fl; rev C])).
      { intros C. rewrite map_app, map_map. cbn [map]. rewrite rev_involutive. f_equal. }
      rewrite Rw, closed_rev. destruct G as [(Gd & -> & ->)|(Gd & <-)].
      * rewrite K3 by lra. split; [intros _; auto|intros _]. apply prism_closed.
      * rewrite K4 by auto. rewrite rev_involutive. split; [|tauto]. intros C. exfalso. exact (prism_open fl h (vz t) Pl Hh Nd Lf C).
  - intros Gd. exists fp, cp. destruct G as [(_ & -> & ->)|(Ng & _)]; [|contradiction]. split; auto. subst ws. f_equal. assert (Lw : length walls = length plan) by (rewrite <- (map_length fst), N1; apply (names_length _ _ _ W)). rewrite <- Lw, firstn_app, firstn_all, Nat.sub_diag. cbn [firstn]. rewrite app_nil_r. auto.
Qed.
Lemma plan_volume t : move_used tr t -> told_apart (corners plan 0 t phi) -> NoDup (corners plan 0 t phi) ->
  exists vol, solid_volume (all_polys ws) = Ok vol /\
  (good -> Rabs (vol - Rabs S / 2 * Rabs h) <= INR (4 * length plan - 4) * (1 / 12000000)) /\
  (~ good -> Rabs (vol - Rabs S / 2 * (Rabs (2 * vz t - h) / 3)) <= INR (4 * length plan - 4) * (1 / 12000000)).
Proof.
  intros Mv' T Nd. destruct (plan_facts _ _ _ _ _ _ _ _ _ _ _ H) as (wn & t' & fp & cp & walls & vf & vc & W & Mv & Ew & ND & N1 & N2 & Le & SN & Hh & Mf & Mc & Sf & Sc & Ef & Ec & Af & Ac & K1 & K2 & K3 & K4 & Nm & G & Fo).
  assert (t' = t) as -> by (destruct Mv as [(A & ->)|(A & ->)], Mv' as [(B & ->)|(B & ->)]; auto; contradiction). set (fl := corners plan 0 t phi) in *.
  assert (Lf : length fl = length plan) by (unfold fl, corners; rewrite map_length; auto). assert (Lc : length (corners plan h t phi) = length plan) by (unfold corners; rewrite map_length; auto).
  assert (Cv : vf * S <> 0) by (destruct Sf as [-> | ->]; lra). assert (Cc : vc * S <> 0) by (destruct Sc as [-> | ->]; lra).
  assert (Sr : forall l, dot ez (vector_area2 (rev l)) = - dot ez (vector_area2 l)) by (intros l; rewrite vector_area2_rev, !dot_ez; unfold vopp, smul; cbn [vz]; ring).
  assert (SF : dot ez (vector_area2 fl) = S) by apply corners_area. assert (SC : dot ez (vector_area2 (corners plan h t phi)) = S) by apply corners_area.
  assert (Pf : in_plane ez (vz t) (p_pts (snd fp)) /\ length (p_pts (snd fp)) = length plan).
  { assert (P0 : in_plane ez (vz t) fl) by (intros p I; rewrite (corners_plane plan 0 t phi p I); ring). destruct (Rlt_dec 0 (vf * S)) as [X|X]; [rewrite (K1 X); auto|rewrite K2 by lra]. rewrite rev_length. split; auto. intros p I. apply P0, in_rev; auto. }
  assert (Pc : in_plane ez (vz t + h) (p_pts (snd cp)) /\ length (p_pts (snd cp)) = length plan).
  { assert (P0 : in_plane ez (vz t + h) (corners plan h t phi)) by (intros p I; rewrite (corners_plane plan h t phi p I); ring). destruct (Rlt_dec 0 (vc * S)) as [X|X]; [rewrite (K3 X); auto|rewrite K4 by lra]. rewrite rev_length. split; auto. intros p I. apply P0, in_rev; auto. }
  destruct Pf as (Pf & Lpf), Pc as (Pc & Lpc).
  destruct (level_flux _ _ _ _ Mf Sf Ef Pf Af Lpf) as (Ff & Xf & Tf). destruct (level_flux _ _ _ _ Mc Sc Ec Pc Ac Lpc) as (Fc & Xc & Tc).
  set (sgn := if Rlt_dec 0 (vf * S) then -1 else 1). destruct (walls_flux (cyc_pairs fl) h sgn walls) as (cs & Fw & Xw & Tw).
  { unfold sgn. destruct (Rlt_dec 0 (vf * S)); auto. }
  { refine (Forall2_weaken _ _ _ _ Fo _). intros e w _ (A & _ & B). destruct (B T Nd) as (B1 & B2). split; auto. unfold sgn. destruct (Rlt_dec 0 (vf * S)) as [X|X]; split; intros Y; try lra; auto. apply B2. lra. }
  rewrite <- area_z, <- dot_ez, SF in Xw.
  assert (EP : all_polys ws = map poly_of walls ++ [(p_pts (snd fp), p_tri (snd fp), p_vn (snd fp)); (p_pts (snd cp), p_tri (snd cp), p_vn (snd cp))]) by (subst ws; unfold all_polys; rewrite map_app; auto).
  assert (FF : Forall2 flat_face (all_polys ws) (cs ++ [vf * vz t; vc * (vz t + h)])) by (rewrite EP; apply Forall2_app; auto).
  destruct (flat_total _ _ FF) as (vol & Ev). exists vol. split; auto. pose proof (flat_volume _ _ _ FF Ev) as Bd.
  assert (CT : triangle_count (all_polys ws) = (4 * length plan - 4)%nat). { rewrite EP, count_app, Tw, cyc_pairs_length, Lf. unfold triangle_count. cbn [fold_right fst snd]. rewrite Tf, Tc. lia. }
  rewrite CT in Bd. rewrite EP, flux_app in Bd by (clear - Fw; induction Fw; cbn [length]; auto). rewrite Xw in Bd. cbn [flux] in Bd. rewrite Xf, Xc in Bd.
  set (x := sgn * h * S + (vz t * dot ez (vector_area2 (p_pts (snd fp))) / 2 + ((vz t + h) * dot ez (vector_area2 (p_pts (snd cp))) / 2 + 0))) in *.
  assert (Rx : (good -> Rabs x / 3 = Rabs S / 2 * Rabs h) /\ (~ good -> Rabs x / 3 = Rabs S / 2 * (Rabs (2 * vz t - h) / 3))).
  { assert (DF : dot ez (vector_area2 (p_pts (snd fp))) = - sgn * S). { unfold sgn. destruct (Rlt_dec 0 (vf * S)) as [X|X]; [rewrite (K1 X), SF|rewrite K2, Sr, SF by lra]; ring. }
    assert (Sg : sgn = 1 \/ sgn = -1) by (unfold sgn; destruct (Rlt_dec 0 (vf * S)); auto).
    assert (AS : Rabs sgn = 1) by (destruct Sg as [-> | ->]; [apply Rabs_R1|rewrite Rabs_left by lra; ring]).
    split; intros Gd; (destruct G as [(Gd' & Ea & Eb)|(Gd' & Ea)]; [|try contradiction]; try contradiction).
    - assert (DC : dot ez (vector_area2 (p_pts (snd cp))) = sgn * S). { unfold sgn. destruct (Rlt_dec 0 (vf * S)) as [X|X]; [rewrite K4, Sr, SC|rewrite K3, SC]; subst; try lra. }
      assert (x = sgn * (3 / 2) * (S * h)) as -> by (unfold x; rewrite DF, DC; field). rewrite !Rabs_mult, AS, (Rabs_pos_eq (3 / 2)) by lra. field.
    - assert (DC : dot ez (vector_area2 (p_pts (snd cp))) = - sgn * S). { unfold sgn. rewrite <- Ea in K3, K4. destruct (Rlt_dec 0 (vf * S)) as [X|X]; [rewrite K3, SC by auto|rewrite K4, Sr, SC by lra]; ring. }
      assert (x = sgn * (-1 / 2) * (S * (2 * vz t - h))) as -> by (unfold x; rewrite DF, DC; field). rewrite !Rabs_mult, AS, (Rabs_left (-1 / 2)) by lra. field. }
  destruct Rx as (R1 & R2). split; intros Gd; [rewrite R1 in Bd by auto|rewrite R2 in Bd by auto]; auto.
Qed.
End Result.
