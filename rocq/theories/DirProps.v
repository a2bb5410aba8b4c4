(** Theorems C93 and C94: directories made from wildcard paths. *)
From Coq Require Import Ascii String List Arith Bool Lia.
From Verif Require Import Prelude TreeModel MeshModel IoModel StlModel WildModel WildSpec WildProofs WildProofs2 WildProofs3 WildProofs4 DirModel DirSpec DirProofs DirProofs2 DirProofs3 DirProofs4.
Import ListNotations.

(** C93: the path and everything above it become directories and nothing else
    changes, unless one of them is a file. *)
Theorem C93_outcome : forall fs wp parent kw path, fs_ok fs -> fill wp parent kw = Ok path ->
  ((forall q, leads_to q (parts path) -> kind_of fs q <> Some IsFile) /\
   exists fs', mkdir fs wp parent kw = Ok (Done (str_path (parts path), fs')) /\ fs_ok fs' /\ made fs fs' (parts path)) \/
  (kind_of fs (parts path) = Some IsFile /\ mkdir fs wp parent kw = Ok (Failed OsExists)) \/
  (exists q, leads_above q (parts path) /\ kind_of fs q = Some IsFile /\ mkdir fs wp parent kw = Ok (Failed OsNotADir)).
Proof. exact mkdir_outcome. Qed.
Print Assumptions C93_outcome.

(** Nothing that was there is lost. *)
Theorem C93_keeps : forall fs wp parent kw s fs' q k, fs_ok fs -> mkdir fs wp parent kw = Ok (Done (s, fs')) ->
  kind_of fs q = Some k -> kind_of fs' q = Some k.
Proof. exact mkdir_keeps. Qed.
Print Assumptions C93_keeps.

(** A second time it changes nothing. *)
Theorem C93_again : forall fs wp parent kw s fs', fs_ok fs -> mkdir fs wp parent kw = Ok (Done (s, fs')) ->
  mkdir fs' wp parent kw = Ok (Done (s, fs')).
Proof. exact mkdir_again. Qed.
Print Assumptions C93_again.

(** Wrong keywords raise before anything is made. *)
Theorem C93_raises : forall fs wp parent kw e, fill wp parent kw = Err e -> mkdir fs wp parent kw = Err e.
Proof. exact mkdir_raises. Qed.
Print Assumptions C93_raises.

(** The path made: the parent's parts, then the template's names. *)
Theorem C93_where : forall parent s ns, tidy s ns ->
  parts (if 0 <? length parent then path_join parent s else s) = parts parent ++ ns.
Proof. exact parts_join. Qed.
Print Assumptions C93_where.

(** The text returned is never empty and names the same directory; a tidy
    path is returned as it is. *)
Theorem C93_text : (forall s, str_path (parts s) <> [] /\ parts (str_path (parts s)) = parts s) /\
  forall s ns, tidy s ns -> str_path (parts s) = s.
Proof. exact (conj path_written tidy_written). Qed.
Print Assumptions C93_text.

Example C93_text_example : str_path (parts []) = str_of "." /\ str_path (parts (str_of "//a/./b/")) = str_of "/a/b".
Proof. split; reflexivity. Qed.

Definition demo_template : str := str_of "run_<n>/case_<k>".
Definition demo_dirs : list tok := [Lit (str_of "run_"); Wild (str_of "n"); Lit (str_of "/case_"); Wild (str_of "k"); Lit []].
Definition demo_fs : fsys := [([str_of "p"], IsDir); ([str_of "p"; str_of "log"], IsFile); ([str_of "p"; str_of "run_7"], IsDir)].
Definition demo_kw : dict str str := [(str_of "n", str_of "7"); (str_of "k", str_of "42")].

Example C93_demo_fs : fs_ok demo_fs.
Proof.
  split; [|split; [|split]].
  - cbn. repeat constructor; cbn; intros H; repeat destruct H as [H|H]; try discriminate; auto.
  - cbn. intros H. repeat destruct H as [H|H]; try discriminate; auto.
  - cbn. intros H. repeat destruct H as [H|H]; try discriminate; auto.
  - intros p q I L. apply in_above in L. cbn in I. destruct I as [<-|[<-|[<-|[]]]]; cbn in L;
      repeat destruct L as [<-|L]; try reflexivity; destruct L.
Qed.
Example C93_example :
  match new_wpath (fun _ => true) demo_template with
  | Ok wp =>
      mkdir demo_fs wp (str_of "p") demo_kw =
        Ok (Done (str_of "p/run_7/case_42", demo_fs ++ [([str_of "p"; str_of "run_7"; str_of "case_42"], IsDir)])) /\
      mkdir demo_fs wp (str_of "q") demo_kw =
        Ok (Done (str_of "q/run_7/case_42", demo_fs ++ [([str_of "q"], IsDir); ([str_of "q"; str_of "run_7"], IsDir); ([str_of "q"; str_of "run_7"; str_of "case_42"], IsDir)])) /\
      mkdir demo_fs wp (str_of "p/log") demo_kw = Ok (Failed OsNotADir) /\
      mkdir demo_fs wp (str_of "p") [(str_of "n", str_of "7")] = Err ValueError
  | Err _ => False
  end /\
  match new_wpath (fun _ => true) (str_of "log") with
  | Ok wp => mkdir demo_fs wp (str_of "p") [] = Ok (Failed OsExists)
  | Err _ => False
  end.
Proof. vm_compute. auto. Qed.

(** C94: a directory that was made is listed below its parent and read back
    with exactly the numbers it was made with. *)
Theorem C94_found : forall name_ok L0 segs wp parent fs fs' kw num s ns,
  L0 <> [] -> plain L0 -> separated segs -> good_names (map fst segs) -> ~ In NL parent ->
  new_wpath name_ok (render (template L0 segs)) = Ok wp -> fs_ok fs ->
  assigns kw (fun w => decimal (num w)) (map fst segs) ->
  tidy (filled (fun w => decimal (num w)) (template L0 segs)) ns ->
  mkdir fs wp parent kw = Ok (Done (s, fs')) ->
  In s (glob fs' parent) /\
  forall D, find_dirs fs' wp parent = Ok D -> exists d, dget D s = Some d /\ reads_back d num (map fst segs).
Proof. exact made_found. Qed.
Print Assumptions C94_found.

(** Reading never raises if no wildcard is repeated, whatever else there is. *)
Theorem C94_never_raises : forall name_ok ts wp listing,
  Forall tok_ok ts -> no_index_clash (wild_names ts) -> (forall s, In (Lit s) ts -> forall c, In c s -> ~ meta_char c) ->
  NoDup (wild_names ts) -> new_wpath name_ok (render ts) = Ok wp -> exists D, dict_values wp listing = Ok D.
Proof. exact never_raises. Qed.
Print Assumptions C94_never_raises.

(** What is found among any paths: exactly those with any text in front, the
    template with numbers, and slashes after it; and the numbers are the ones
    that stand there. *)
Theorem C94_found_iff : forall name_ok ts wp listing D,
  Forall tok_ok ts -> no_index_clash (wild_names ts) -> bare ts ->
  new_wpath name_ok (render ts) = Ok wp -> dict_values wp listing = Ok D ->
  (forall p, In p (dkeys D) <-> In p listing /\ exists d pre t tl, p = pre ++ t ++ tl /\ ~ In NL pre /\ reads d ts t /\ only_slashes tl) /\
  (forall p d, dget D p = Some d -> (exists pre t tl, p = pre ++ t ++ tl /\ ~ In NL pre /\ reads d ts t /\ only_slashes tl) /\
     NoDup (dkeys d) /\ forall w, In w (dkeys d) <-> In w (wild_names ts)).
Proof. exact found_iff. Qed.
Print Assumptions C94_found_iff.

(** A template that ends with a slash finds nothing, although mkdir makes its
    directories. *)
Theorem C94_ends_in_slash : forall name_ok ts l wp fs parent,
  Forall tok_ok (ts ++ [Lit (l ++ ["/"%char])]) -> no_index_clash (wild_names (ts ++ [Lit (l ++ ["/"%char])])) ->
  bare (ts ++ [Lit (l ++ ["/"%char])]) -> names_ok fs ->
  new_wpath name_ok (render (ts ++ [Lit (l ++ ["/"%char])])) = Ok wp -> find_dirs fs wp parent = Ok [].
Proof. exact ends_in_slash. Qed.
Print Assumptions C94_ends_in_slash.

Example C94_ends_in_slash_example :
  match new_wpath (fun _ => true) (str_of "run_<n>/") with
  | Ok wp =>
      match mkdir [] wp (str_of "p") [(str_of "n", str_of "3")] with
      | Ok (Done (s, fs)) => s = str_of "p/run_3" /\ fs = [([str_of "p"], IsDir); ([str_of "p"; str_of "run_3"], IsDir)] /\
                             find_dirs fs wp (str_of "p") = Ok []
      | _ => False
      end
  | Err _ => False
  end.
Proof. vm_compute. auto. Qed.

(** The same with a doubled slash inside. *)
Theorem C94_doubled_slash_refuted :
  ~ (forall wp parent kw s fs, new_wpath (fun _ => true) (str_of "a//run_<n>") = Ok wp ->
       mkdir [] wp parent kw = Ok (Done (s, fs)) -> forall D, find_dirs fs wp parent = Ok D -> In s (dkeys D)).
Proof.
  intros C.
  specialize (C (mkWP (str_of "a//run_<n>") [str_of "n"] (regex_text (str_of "a//run_<n>"))) (str_of "p") [(str_of "n", str_of "3")]
    (str_of "p/a/run_3") [([str_of "p"], IsDir); ([str_of "p"; str_of "a"], IsDir); ([str_of "p"; str_of "a"; str_of "run_3"], IsDir)]).
  specialize (C eq_refl eq_refl [] eq_refl). exact C.
Qed.
Print Assumptions C94_doubled_slash_refuted.

(** Not everything found could have been made: directories deeper down and
    names with something in front are found as well. *)
Definition stray_fs : fsys :=
  [([str_of "p"], IsDir); ([str_of "p"; str_of "run_1"], IsDir); ([str_of "p"; str_of "old"], IsDir);
   ([str_of "p"; str_of "old"; str_of "run_1"], IsDir); ([str_of "p"; str_of "xrun_2"], IsFile)].
Theorem C94_only_made_refuted :
  ~ (forall wp fs parent D p, new_wpath (fun _ => true) (str_of "run_<n>") = Ok wp ->
       find_dirs fs wp parent = Ok D -> In p (dkeys D) -> exists kw, fill wp parent kw = Ok p).
Proof.
  intros C.
  specialize (C (mkWP (str_of "run_<n>") [str_of "n"] (regex_text (str_of "run_<n>"))) stray_fs (str_of "p")
    [(str_of "p/run_1", [(str_of "n", 1)]); (str_of "p/old/run_1", [(str_of "n", 1)]); (str_of "p/xrun_2", [(str_of "n", 2)])]
    (str_of "p/xrun_2") eq_refl eq_refl).
  destruct C as (kw & E); [cbn; auto|].
  destruct kw as [|(k, v) [|x kw]]; try discriminate. unfold fill in E. cbn [length wp_wildcards Nat.eqb negb foldM fst] in E.
  destruct (memb k [str_of "n"]) eqn:M; [|discriminate].
  apply memb_true in M. destruct M as [<-|[]]. vm_compute in E. discriminate.
Qed.
Print Assumptions C94_only_made_refuted.

(** So the path found under a directory's numbers can be another one. *)
Theorem C94_looked_up_refuted :
  ~ (forall wp fs parent n s fs' R, new_wpath (fun _ => true) (str_of "run_<n>") = Ok wp -> fs_ok fs ->
       mkdir fs wp parent [(str_of "n", decimal n)] = Ok (Done (s, fs')) ->
       namedtuple_keys wp (glob fs' parent) = Ok R -> dget R [n] = Some s).
Proof.
  intros C.
  specialize (C (mkWP (str_of "run_<n>") [str_of "n"] (regex_text (str_of "run_<n>"))) stray_fs (str_of "p") 1 (str_of "p/run_1") stray_fs
    [([1], str_of "p/old/run_1"); ([2], str_of "p/xrun_2")] eq_refl).
  assert (W : fs_ok stray_fs).
  { split; [|split; [|split]].
    - cbn. repeat constructor; cbn; intros H; repeat destruct H as [H|H]; try discriminate; auto.
    - cbn. intros H. repeat destruct H as [H|H]; try discriminate; auto.
    - cbn. intros H. repeat destruct H as [H|H]; try discriminate; auto.
    - intros p q I L. apply in_above in L. cbn in I. destruct I as [<-|[<-|[<-|[<-|[<-|[]]]]]]; cbn in L;
        repeat destruct L as [<-|L]; try reflexivity; destruct L. }
  specialize (C W eq_refl eq_refl). vm_compute in C. discriminate.
Qed.
Print Assumptions C94_looked_up_refuted.

(** With a repeated wildcard one directory with two numbers makes reading raise
    for all of them. *)
Theorem C94_repeated_refuted :
  ~ (forall wp fs parent, new_wpath (fun _ => true) (str_of "a_<n>/b_<n>") = Ok wp -> exists D, find_dirs fs wp parent = Ok D).
Proof.
  intros C.
  destruct (C (mkWP (str_of "a_<n>/b_<n>") [str_of "n"] (regex_text (str_of "a_<n>/b_<n>")))
    [([str_of "a_1"], IsDir); ([str_of "a_1"; str_of "b_1"], IsDir); ([str_of "a_1"; str_of "b_2"], IsDir)] [] eq_refl) as (D & E).
  vm_compute in E. discriminate.
Qed.
Print Assumptions C94_repeated_refuted.

(** A dot in the template stands for any character. *)
Theorem C94_dot_refuted :
  ~ (forall wp fs parent D p, new_wpath (fun _ => true) (str_of "s_<n>.npy") = Ok wp ->
       find_dirs fs wp parent = Ok D -> In p (dkeys D) -> exists pre, p = pre ++ str_of ".npy").
Proof.
  intros C.
  destruct (C (mkWP (str_of "s_<n>.npy") [str_of "n"] (regex_text (str_of "s_<n>.npy"))) [([str_of "s_1_npy"], IsFile)] []
    [(str_of "s_1_npy", [(str_of "n", 1)])] (str_of "s_1_npy") eq_refl eq_refl) as (pre & E); [cbn; auto|].
  apply (f_equal (@rev ascii)) in E. rewrite rev_app_distr in E. cbn in E. discriminate.
Qed.
Print Assumptions C94_dot_refuted.

Example C94_found_example :
  match new_wpath (fun _ => true) demo_template with
  | Ok wp =>
      match mkdir demo_fs wp (str_of "./p/") demo_kw with
      | Ok (Done (s, fs)) => s = str_of "p/run_7/case_42" /\ find_dirs fs wp (str_of "p") = Ok [(s, [(str_of "n", 7); (str_of "k", 42)])]
      | _ => False
      end
  | Err _ => False
  end.
Proof. vm_compute. auto. Qed.
Example C94_found_hypotheses :
  demo_dirs = template (str_of "run_") [(str_of "n", str_of "/case_"); (str_of "k", [])] /\ render demo_dirs = demo_template /\
  plain (str_of "run_") /\ separated [(str_of "n", str_of "/case_"); (str_of "k", [])] /\ good_names [str_of "n"; str_of "k"] /\
  tidy (filled (fun w => decimal (if eqb w (str_of "n") then 7 else 42)) demo_dirs) [str_of "run_7"; str_of "case_42"] /\
  bare demo_dirs /\ NoDup (wild_names demo_dirs).
Proof.
  split; [reflexivity|]. split; [reflexivity|]. split; [apply plain_check; vm_compute; reflexivity|]. split; [|split; [|split; [|split]]].
  - split; [discriminate|]. split; [apply plain_check; vm_compute; reflexivity|]. apply quiet_check; vm_compute; reflexivity.
  - split; [|apply clash_check; vm_compute; reflexivity].
    repeat constructor; try discriminate; apply angle_check; vm_compute; reflexivity.
  - apply (tidy_more (str_of "run_7") (str_of "case_42") [str_of "case_42"]); try discriminate.
    + cbn. intros H. repeat destruct H as [H|H]; try discriminate; auto.
    + apply tidy_one; try discriminate. cbn. intros H. repeat destruct H as [H|H]; try discriminate; auto.
  - intros s I c J. unfold meta_char. cbn in I. destruct I as [I|[I|[I|[I|[I|[]]]]]]; try discriminate; inversion I; subst s; cbn in J;
      repeat destruct J as [<-|J]; try destruct J; (split; [cbn; intros H; repeat destruct H as [H|H]; try discriminate; auto|discriminate]).
  - cbn. repeat constructor; cbn; intros H; repeat destruct H as [H|H]; try discriminate; auto.
Qed.
