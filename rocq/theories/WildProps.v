(** Properties C24-C26: wildcard paths. *)
From Coq Require Import Ascii String List Arith Bool Lia.
From Verif Require Import Prelude IoModel StlModel WildModel WildSpec WildProofs4 WildProofs5.
Import ListNotations.

(** C24: fill succeeds exactly when the keywords are the wildcards; then each
    wildcard becomes its value and nothing else changes. *)
Theorem C24_fill : forall name_ok ts wp kw parent,
  Forall tok_ok ts -> new_wpath name_ok (render ts) = Ok wp -> NoDup (dkeys kw) ->
  ((exists r, fill wp parent kw = Ok r) <-> exact_keys kw (wild_names ts)) /\
  (forall val, assigns kw val (wild_names ts) -> (forall w, In w (wild_names ts) -> no_angle (val w)) ->
    exists r, fill wp parent kw = Ok r /\ joins_to parent (filled val ts) r) /\
  (length kw <> length (nodup eq_dec (wild_names ts)) -> fill wp parent kw = Err ValueError) /\
  (length kw = length (nodup eq_dec (wild_names ts)) -> ~ exact_keys kw (wild_names ts) -> fill wp parent kw = Err KeyError).
Proof. exact fill_all. Qed.
Print Assumptions C24_fill.

(** Values with angle brackets are substituted again: the order of keywords
    then matters. *)
Theorem C24_brackets_in_values_refuted :
  ~ (forall ts wp kw val, Forall tok_ok ts -> new_wpath (fun _ => true) (render ts) = Ok wp ->
       assigns kw val (wild_names ts) -> fill wp [] kw = Ok (filled val ts)).
Proof.
  intros C.
  set (val := fun w : str => if eqb w (str_of "a") then str_of "<b>" else str_of "x").
  specialize (C [Wild (str_of "a"); Lit (str_of "-"); Wild (str_of "b")]
    (mkWP (str_of "<a>-<b>") [str_of "a"; str_of "b"] (regex_text (str_of "<a>-<b>")))
    [(str_of "a", str_of "<b>"); (str_of "b", str_of "x")] val).
  assert (H1 : Forall tok_ok [Wild (str_of "a"); Lit (str_of "-"); Wild (str_of "b")]).
  { constructor; [|constructor; [|constructor; [|constructor]]].
    - split; [discriminate|]. split; intros [H|[]]; discriminate.
    - split; intros [H|[]]; discriminate.
    - split; [discriminate|]. split; intros [H|[]]; discriminate. }
  specialize (C H1). clear H1.
  assert (H3 : assigns [(str_of "a", str_of "<b>"); (str_of "b", str_of "x")] val [str_of "a"; str_of "b"]).
  { split; [|split].
    - constructor; [intros [H|[]]; discriminate|]. constructor; [intros []|constructor].
    - intros k. simpl. tauto.
    - intros k v [E|[E|[]]]; inversion E; subst; vm_compute; reflexivity. }
  assert (H2 : new_wpath (fun _ => true) (render [Wild (str_of "a"); Lit (str_of "-"); Wild (str_of "b")]) =
    Ok (mkWP (str_of "<a>-<b>") [str_of "a"; str_of "b"] (regex_text (str_of "<a>-<b>")))) by (vm_compute; reflexivity).
  specialize (C H2 H3). vm_compute in C. discriminate.
Qed.
Print Assumptions C24_brackets_in_values_refuted.

Definition demo_segs : list (str * str) := [(str_of "job", str_of "/file_"); (str_of "job", str_of "_"); (str_of "step", str_of ".csv")].
Definition demo_L0 : str := str_of "sub_dir_".
Definition demo_num (w : str) : nat := if eqb w (str_of "job") then 10 else 207.
Definition demo_kw : dict str str := [(str_of "step", str_of "207"); (str_of "job", str_of "10")].
Definition demo_wp : result wpath := new_wpath (fun _ => true) (render (template demo_L0 demo_segs)).

Example C24_example :
  match demo_wp with
  | Ok wp => fill wp (str_of "out") demo_kw = Ok (str_of "out/sub_dir_10/file_10_207.csv") /\
             fill wp [] (tl demo_kw) = Err ValueError /\
             fill wp [] [(str_of "step", str_of "1"); (str_of "jobs", str_of "1")] = Err KeyError
  | Err _ => False
  end.
Proof. vm_compute. auto. Qed.

(** C25: reading a directory of filled paths gives back the numbers. *)
Theorem C25_match_inverts_fill : forall name_ok L0 segs wp parent listing,
  L0 <> [] -> plain L0 -> separated segs -> good_names (map fst segs) -> ~ In NL parent ->
  new_wpath name_ok (render (template L0 segs)) = Ok wp -> NoDup listing ->
  (forall p, In p listing -> exists num kw, assigns kw (fun w => decimal (num w)) (map fst segs) /\ fill wp parent kw = Ok p) ->
  exists D, dict_values wp listing = Ok D /\ dkeys D = listing /\
    forall p num kw, In p listing -> assigns kw (fun w => decimal (num w)) (map fst segs) -> fill wp parent kw = Ok p ->
      exists d, dget D p = Some d /\ reads_back d num (map fst segs).
Proof. exact listing_read. Qed.
Print Assumptions C25_match_inverts_fill.

Example C25_hypotheses :
  demo_L0 <> [] /\ plain demo_L0 /\ separated demo_segs /\ good_names (map fst demo_segs) /\
  assigns demo_kw (fun w => decimal (demo_num w)) (map fst demo_segs).
Proof.
  split; [discriminate|]. split; [apply plain_check; vm_compute; reflexivity|]. split; [|split].
  - split; [discriminate|]. split; [apply plain_check; vm_compute; reflexivity|].
    split; [discriminate|]. split; [apply plain_check; vm_compute; reflexivity|].
    apply quiet_check; vm_compute; reflexivity.
  - split; [|apply clash_check; vm_compute; reflexivity].
    repeat constructor; try discriminate; apply angle_check; vm_compute; reflexivity.
  - split; [|split].
    + constructor; [intros [H|[]]; discriminate|]. constructor; [intros []|constructor].
    + intros k. simpl. tauto.
    + intros k v [E|[E|[]]]; inversion E; subst; vm_compute; reflexivity.
Qed.

Example C25_example :
  match demo_wp with
  | Ok wp => dict_values wp [str_of "out/sub_dir_10/file_10_207.csv"; str_of "out/other.csv"; str_of "out/sub_dir_3/file_3_0.csv"] =
      Ok [(str_of "out/sub_dir_10/file_10_207.csv", [(str_of "job", 10); (str_of "step", 207)]);
          (str_of "out/sub_dir_3/file_3_0.csv", [(str_of "job", 3); (str_of "step", 0)])]
  | Err _ => False
  end.
Proof. vm_compute. auto. Qed.

(** The greedy ".*" in front takes all digits but the last one when the
    template starts with a wildcard. *)
Theorem C25_leading_wildcard_loses_digits : forall name_ok w L wp n parent p,
  w <> [] -> no_angle w -> quiet L -> ~ In NL parent ->
  new_wpath name_ok (render [Wild w; Lit L]) = Ok wp -> fill wp parent [(w, decimal n)] = Ok p ->
  dict_values wp [p] = Ok [(p, [(w, n mod 10)])].
Proof. exact leading_wildcard. Qed.
Print Assumptions C25_leading_wildcard_loses_digits.

Example C25_leading_example :
  match new_wpath (fun _ => true) (str_of "<step>.npy") with
  | Ok wp => dict_values wp [str_of "d/123.npy"] = Ok [(str_of "d/123.npy", [(str_of "step", 3)])]
  | Err _ => False
  end.
Proof. vm_compute. auto. Qed.

(** Adjacent wildcards cannot be separated again. *)
Theorem C25_adjacent_wildcards_refuted :
  exists wp p, new_wpath (fun _ => true) (str_of "f<a><b>") = Ok wp /\
    fill wp [] [(str_of "a", decimal 1); (str_of "b", decimal 23)] = Ok p /\
    dict_values wp [p] = Ok [(p, [(str_of "a", 12); (str_of "b", 3)])].
Proof. do 2 eexists. split; [reflexivity|]. split; [vm_compute; reflexivity|vm_compute; reflexivity]. Qed.
Print Assumptions C25_adjacent_wildcards_refuted.

(** A wildcard named like the group of another one breaks the expression. *)
Theorem C25_index_clash_refuted :
  exists wp p, new_wpath (fun _ => true) (str_of "f<a>-<a_0>") = Ok wp /\
    fill wp [] [(str_of "a", decimal 1); (str_of "a_0", decimal 2)] = Ok p /\
    dict_values wp [p] = Err ReError.
Proof. do 2 eexists. split; [reflexivity|]. split; vm_compute; reflexivity. Qed.
Print Assumptions C25_index_clash_refuted.

(** C26: the filter keeps exactly the paths that agree with every keyword. *)
Theorem C26_filter : forall wp listing kw D, dict_values wp listing = Ok D ->
  matching_paths wp listing kw =
  Ok (map fst (filter (fun pw => forallb (fun kv => match dget (snd pw) (fst kv) with Some v => eqb (snd kv) v | None => false end) kw) D)).
Proof. exact matching_paths_spec. Qed.
Print Assumptions C26_filter.

Theorem C26_unknown_keyword : forall wp listing kw D k v, dict_values wp listing = Ok D -> In (k, v) kw ->
  (forall p wd, In (p, wd) D -> ~ In k (dkeys wd)) -> matching_paths wp listing kw = Ok [].
Proof. exact filter_unknown. Qed.
Print Assumptions C26_unknown_keyword.

Definition demo_listing : list str := [str_of "o/sub_dir_1/file_1_2.csv"; str_of "o/x"; str_of "o/sub_dir_1/file_1_3.csv"; str_of "o/sub_dir_2/file_2_2.csv"].
Example C26_example :
  match demo_wp with
  | Ok wp => matching_paths wp demo_listing [(str_of "step", 2)] = Ok [str_of "o/sub_dir_1/file_1_2.csv"; str_of "o/sub_dir_2/file_2_2.csv"] /\
             matching_paths wp demo_listing [(str_of "step", 2); (str_of "job", 2)] = Ok [str_of "o/sub_dir_2/file_2_2.csv"] /\
             matching_paths wp demo_listing [(str_of "step", 2); (str_of "foo", 2)] = Ok [] /\
             matching_paths wp demo_listing [] = Ok [str_of "o/sub_dir_1/file_1_2.csv"; str_of "o/sub_dir_1/file_1_3.csv"; str_of "o/sub_dir_2/file_2_2.csv"]
  | Err _ => False
  end.
Proof. vm_compute. auto. Qed.

(** Paths without a digit are passed over, wherever they stand in the listing. *)
Theorem C26_others_skipped : forall name_ok ts wp before p after, Forall tok_ok ts -> no_index_clash (wild_names ts) ->
  (forall s, In (Lit s) ts -> forall c, In c s -> ~ meta_char c) -> wild_names ts <> [] -> new_wpath name_ok (render ts) = Ok wp ->
  (forall c, In c p -> ~ digit_char c) -> dict_values wp (before ++ p :: after) = dict_values wp (before ++ after).
Proof. exact no_digits_skipped. Qed.
Print Assumptions C26_others_skipped.
Example C26_skipped_example :
  match demo_wp with
  | Ok wp => dict_values wp [str_of "o/x"; str_of "o/sub_dir_1/file_1_2.csv"; str_of "o/readme.txt"] = Ok [(str_of "o/sub_dir_1/file_1_2.csv", [(str_of "job", 1); (str_of "step", 2)])]
  | Err _ => False
  end.
Proof. vm_compute. reflexivity. Qed.

(** Keyed by the values of the wildcards in their order, each path is found
    under its own values; of paths with the same values the last one is kept. *)
Theorem C26_keyed_by_values : forall wp listing R, namedtuple_keys wp listing = Ok R ->
  exists D, dict_values wp listing = Ok D /\
  (forall path wd, In (path, wd) D -> length wd = length (wp_wildcards wp) /\ exists c, Forall2 (fun w v => dget wd w = Some v) (wp_wildcards wp) c) /\
  forall c path, dget R c = Some path <->
    exists l1 wd l2, D = l1 ++ (path, wd) :: l2 /\ Forall2 (fun w v => dget wd w = Some v) (wp_wildcards wp) c /\
      forall path' wd', In (path', wd') l2 -> ~ Forall2 (fun w v => dget wd' w = Some v) (wp_wildcards wp) c.
Proof. exact namedtuple_spec. Qed.
Print Assumptions C26_keyed_by_values.

Theorem C26_keyed_by_values_total : forall wp listing D, dict_values wp listing = Ok D ->
  (forall path wd, In (path, wd) D -> length wd = length (wp_wildcards wp) /\ exists c, Forall2 (fun w v => dget wd w = Some v) (wp_wildcards wp) c) ->
  exists R, namedtuple_keys wp listing = Ok R.
Proof. exact namedtuple_total. Qed.
Print Assumptions C26_keyed_by_values_total.

Example C26_keyed_example :
  match demo_wp with
  | Ok wp => wp_wildcards wp = [str_of "job"; str_of "step"] /\
             match namedtuple_keys wp (demo_listing ++ [str_of "p/sub_dir_1/file_1_3.csv"]) with
             | Ok R => dget R [1; 2] = Some (str_of "o/sub_dir_1/file_1_2.csv") /\ dget R [1; 3] = Some (str_of "p/sub_dir_1/file_1_3.csv") /\
                       dget R [2; 2] = Some (str_of "o/sub_dir_2/file_2_2.csv") /\ length R = 3
             | Err _ => False
             end
  | Err _ => False
  end.
Proof. vm_compute. auto 10. Qed.
