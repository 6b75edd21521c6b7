(** * A chain on which [find_root] and [get_min_wtrbnr] always walk every node *)
From Verif Require Import Base BaseLemmas Data LCT LCTSpec LCTRun.
Local Open Scope Z_scope.

(** link node i below node i - 1 and look up its root, for i = 1, 2, .. *)
Definition grow (i : nat) : list lct_op := [SetFa (S i) i; FindRoot (S i)].
Definition chain_ops (n : nat) : list lct_op := FindRoot 0 :: flat_map grow (seq 0 n).
Definition chain_outs (n : nat) : list lct_out := ONode 0 :: flat_map (fun _ => [ONone; ONode 0]) (seq 0 n).

Definition before (j : nat) : option nat := match j with O => None | S k => Some k end.

(** the plain forest: 0 <- 1 <- .. <- i *)
Definition chain (i : nat) : forest := mkForest (fun j => if Nat.leb j i then before j else None) (fun _ => 0).

Section Linear.
Variable one : Z.
Variable N : nat.
#[local] Hint Extern 0 (DataOps Z) => exact (exact_ops one) : typeclass_instances.

Definition hp (g : nat -> node Z) : heap Z := map g (seq 0 N).

Lemma hp_at g x : (x < N)%nat -> nth_error (hp g) x = Some (g x).
Proof.
  intro H. unfold hp. rewrite nth_error_map. rewrite (nth_error_nth' _ 0%nat) by (rewrite seq_length; exact H).
  rewrite seq_nth by exact H. reflexivity.
Qed.

Lemma ld_hp g x : (x < N)%nat -> ld (hp g) x = Ok (g x).
Proof. intro H. apply vget_ok, hp_at, H. Qed.

Lemma upd_hp g x v : (x < N)%nat -> upd (hp g) x v = hp (fun j => if Nat.eqb j x then v else g j).
Proof.
  intro H. apply (nth_ext _ _ v v); [rewrite upd_length; unfold hp; rewrite !map_length; reflexivity|].
  intros j Hj. rewrite upd_length in Hj. assert (Hj' : (j < N)%nat) by (unfold hp in Hj; rewrite map_length, seq_length in Hj; exact Hj).
  destruct (Nat.eqb_spec j x) as [->|Hn].
  - rewrite nth_upd_eq by exact Hj. symmetry. apply nth_error_nth. rewrite hp_at by exact H. rewrite Nat.eqb_refl. reflexivity.
  - rewrite nth_upd_neq by auto. rewrite (nth_error_nth (hp g) j v (hp_at g j Hj')). symmetry.
    apply nth_error_nth. rewrite hp_at by exact Hj'. destruct (Nat.eqb_spec j x); [contradiction|reflexivity].
Qed.

Lemma modi_hp g x f : (x < N)%nat -> modi (hp g) x f = Ok (hp (fun j => if Nat.eqb j x then f (g x) else g j)).
Proof.
  intro H. unfold modi. rewrite ld_hp by exact H. cbn [bind]. rewrite vset_ok by (unfold hp; rewrite map_length, seq_length; exact H).
  rewrite upd_hp by exact H. reflexivity.
Qed.

Lemma hp_ext g g' : (forall j, g j = g' j) -> hp g = hp g'.
Proof. intro H. apply map_ext. exact H. Qed.

Definition spine (i j : nat) : node Z :=
  if Nat.ltb j i then mkNode (Some (S j)) (before j) None (0, Some 0%nat) 0 0
  else if Nat.eqb j i then mkNode None (before j) None (0, Some 0%nat) 0 0 else node0.

Lemma spine_top i : spine i i = mkNode None (before i) None (0, Some 0%nat) 0 0.
Proof. unfold spine. rewrite Nat.ltb_irrefl, Nat.eqb_refl. reflexivity. Qed.
Lemma spine_below i j : (j < i)%nat -> spine i j = mkNode (Some (S j)) (before j) None (0, Some 0%nat) 0 0.
Proof. intro H. unfold spine. apply Nat.ltb_lt in H. rewrite H. reflexivity. Qed.
Lemma spine_next i : spine i (S i) = node0.
Proof. unfold spine. destruct (Nat.ltb_spec (S i) i); [lia|]. destruct (Nat.eqb_spec (S i) i); [lia|reflexivity]. Qed.
Lemma spine_far i j : (i < j)%nat -> spine i j = node0.
Proof. intro H. unfold spine. destruct (Nat.ltb_spec j i); [lia|]. destruct (Nat.eqb_spec j i); [lia|reflexivity]. Qed.

Lemma leftmost_spine i : (i < N)%nat -> forall x f, (x <= i)%nat ->
  leftmost f (hp (spine i)) x = if Nat.ltb x f then Ok 0%nat else Err OutOfFuel.
Proof.
  intro Hi. induction x as [|x IH]; intros f Hx; (destruct f as [|f]; [reflexivity|]); cbn [leftmost]; rewrite ld_hp by lia; cbn [bind].
  - destruct i; [rewrite spine_top|rewrite spine_below by lia]; reflexivity.
  - assert (E : n_c0 (spine i (S x)) = Some x) by (destruct (Nat.eq_dec (S x) i) as [<-|]; [rewrite spine_top|rewrite spine_below by lia]; reflexivity).
    rewrite E, IH by lia. destruct (Nat.ltb_spec x f), (Nat.ltb_spec (S x) (S f)); reflexivity || lia.
Qed.

Lemma push_down_clean g x : (x < N)%nat -> n_add (g x) = 0 -> push_down (hp g) x = Ok (hp g).
Proof. intros H E. unfold push_down. rewrite ld_hp by exact H. cbn [bind]. rewrite E. reflexivity. Qed.

Lemma is_root_top g x : (x < N)%nat -> n_fa (g x) = None -> is_root (hp g) x = Ok true.
Proof. intros H E. unfold is_root. rewrite ld_hp by exact H. cbn [bind]. rewrite E. reflexivity. Qed.

Lemma is_root_path g x y : (x < N)%nat -> (y < N)%nat -> n_fa (g x) = Some y -> ptr_eqb (n_c0 (g y)) (Some x) = false -> ptr_eqb (n_c1 (g y)) (Some x) = false ->
  is_root (hp g) x = Ok true.
Proof. intros H H' E E0 E1. unfold is_root. rewrite ld_hp by exact H. cbn [bind]. rewrite E. rewrite ld_hp by exact H'. cbn [bind]. rewrite E0, E1. reflexivity. Qed.

Lemma splay_root f g x : (x < N)%nat -> is_root (hp g) x = Ok true -> n_add (g x) = 0 -> splay (S f) (hp g) x = push_up (hp g) x.
Proof.
  intros H R E. unfold splay. cbn [push_down_from_root]. rewrite R. cbn [bind]. rewrite push_down_clean by auto. cbn [bind splay_loop]. rewrite R. reflexivity.
Qed.

Lemma hp_same g g' : (forall j, g j = g' j) -> Ok (hp g) = Ok (hp g').
Proof. intro H. rewrite (hp_ext g g' H). reflexivity. Qed.

Lemma push_up_spine i : (i < N)%nat -> push_up (hp (spine i)) i = Ok (hp (spine i)).
Proof.
  intro H. unfold push_up. rewrite ld_hp by exact H. cbn [bind]. rewrite spine_top. cbn [n_c0 n_c1 n_val].
  assert (G : forall m, m = (0, Some 0%nat) -> modi (hp (spine i)) i (set_min_ m) = Ok (hp (spine i))).
  { intros m ->. rewrite modi_hp by exact H. apply hp_same. intro j. destruct (Nat.eqb_spec j i) as [->|]; [|reflexivity]. rewrite spine_top. reflexivity. }
  destruct i as [|i]; cbn [before bind].
  - apply G. reflexivity.
  - rewrite ld_hp by lia. cbn [bind]. rewrite spine_below by lia. cbn [n_min fst]. apply G. reflexivity.
Qed.

Lemma access_spine f i : (i < N)%nat -> access (S f) (hp (spine i)) i = Ok (hp (spine i)).
Proof.
  intro H. assert (S1 : splay (S f) (hp (spine i)) i = Ok (hp (spine i))).
  { rewrite splay_root; [apply push_up_spine; exact H|exact H|apply is_root_top; [exact H|]|]; rewrite spine_top; reflexivity. }
  unfold access. cbn [access_loop]. rewrite S1. cbn [bind]. unfold setc. rewrite modi_hp by exact H. cbn [bind].
  rewrite (hp_ext _ (spine i)) by (intro j; destruct (Nat.eqb_spec j i) as [->|]; [rewrite spine_top|]; reflexivity).
  rewrite push_up_spine by exact H. cbn [bind]. rewrite ld_hp by exact H. cbn [bind]. rewrite spine_top. cbn [n_fa]. destruct f; cbn [access_loop bind]; exact S1.
Qed.

Theorem find_root_spine f i : (i < N)%nat ->
  find_root f (hp (spine i)) i = if Nat.ltb i f then Ok (hp (spine i), 0%nat) else Err OutOfFuel.
Proof.
  intro H. destruct f as [|f]; [reflexivity|]. unfold find_root. rewrite access_spine by exact H. cbn [bind]. rewrite leftmost_spine by lia.
  destruct (Nat.ltb i (S f)); reflexivity.
Qed.

Lemma get_min_spine i : (i < N)%nat -> forall x f y, (x <= i)%nat ->
  get_min_loop f (hp (spine i)) x (0, y) = if Nat.ltb x f then Ok (hp (spine i), (0, if Nat.eqb x 0 then y else Some 1%nat)) else Err OutOfFuel.
Proof.
  intro Hi. induction x as [|x IH]; intros f y Hx; (destruct f as [|f]; [reflexivity|]); cbn [get_min_loop].
  - assert (E : exists m, spine i 0 = mkNode m None None (0, Some 0%nat) 0 0) by (destruct i; [rewrite spine_top|rewrite spine_below by lia]; eauto).
    destruct E as [m E]. rewrite push_down_clean by (try lia; rewrite E; reflexivity). cbn [bind]. rewrite ld_hp by lia. cbn [bind]. rewrite E. reflexivity.
  - assert (E : exists m, spine i (S x) = mkNode m (Some x) None (0, Some 0%nat) 0 0).
    { destruct (Nat.eq_dec (S x) i) as [<-|]; [rewrite spine_top|rewrite spine_below by lia]; eexists; reflexivity. }
    destruct E as [m E]. rewrite push_down_clean by (try lia; rewrite E; reflexivity). cbn [bind]. rewrite ld_hp by lia. cbn [bind]. rewrite E.
    cbn [n_c1 n_c0 n_val bind fst]. change (dle 0 0) with true. cbn iota. rewrite IH by lia. destruct x; cbn [Nat.eqb];
    (match goal with |- (if Nat.ltb ?a ?b then _ else _) = (if Nat.ltb ?c ?d then _ else _) => destruct (Nat.ltb_spec a b), (Nat.ltb_spec c d) end; reflexivity || lia).
Qed.

Theorem get_min_chain f i : (i < N)%nat -> (0 < i)%nat ->
  get_min_wtrbnr f (hp (spine i)) i = if Nat.ltb i f then Ok (hp (spine i), (0, Some 1%nat)) else Err OutOfFuel.
Proof.
  intros H Hp. destruct f as [|f]; [reflexivity|]. unfold get_min_wtrbnr. rewrite access_spine by exact H. cbn [bind]. rewrite ld_hp by exact H. cbn [bind].
  rewrite spine_top. cbn [n_val]. rewrite get_min_spine by lia. destruct (Nat.eqb_spec i 0); [lia|]. reflexivity.
Qed.

(** ** One more link *)
Definition linked (i j : nat) : node Z := if Nat.eqb j (S i) then mkNode (Some i) None None (0, Some (S i)) 0 0 else spine i j.

Lemma linked_new i : linked i (S i) = mkNode (Some i) None None (0, Some (S i)) 0 0.
Proof. unfold linked. rewrite Nat.eqb_refl. reflexivity. Qed.
Lemma linked_old i j : j <> S i -> linked i j = spine i j.
Proof. intro H. unfold linked. destruct (Nat.eqb_spec j (S i)); [contradiction|reflexivity]. Qed.

Lemma set_fa_spine f i : (S i < N)%nat -> set_fa (S f) (hp (spine i)) (S i) (Some i) = Ok (hp (linked i)).
Proof.
  intro H. unfold set_fa. rewrite splay_root; [|exact H|apply is_root_top; [exact H|]|]; try (rewrite spine_next; reflexivity).
  unfold push_up. rewrite ld_hp by exact H. cbn [bind]. rewrite spine_next. cbn [node0 n_c0 n_c1 n_val bind]. rewrite modi_hp by exact H. cbn [bind].
  rewrite ld_hp by exact H. cbn [bind]. rewrite Nat.eqb_refl, spine_next. cbn [set_min_ node0 n_fa ptr_eqb assert_ bind]. rewrite modi_hp by exact H.
  apply hp_same. intro j. rewrite Nat.eqb_refl. destruct (Nat.eqb_spec j (S i)) as [->|Hn]; [rewrite linked_new|rewrite linked_old by exact Hn]; reflexivity.
Qed.

(** the new node hangs right of the old top *)
Definition joined (i j : nat) : node Z :=
  if Nat.eqb j (S i) then mkNode (Some i) None None (0, Some (S i)) 0 0
  else if Nat.eqb j i then mkNode None (before i) (Some (S i)) (0, Some 0%nat) 0 0 else spine i j.

Lemma joined_new i : joined i (S i) = mkNode (Some i) None None (0, Some (S i)) 0 0.
Proof. unfold joined. rewrite Nat.eqb_refl. reflexivity. Qed.
Lemma joined_top i : joined i i = mkNode None (before i) (Some (S i)) (0, Some 0%nat) 0 0.
Proof. unfold joined. destruct (Nat.eqb_spec i (S i)); [lia|]. rewrite Nat.eqb_refl. reflexivity. Qed.
Lemma joined_old i j : j <> S i -> j <> i -> joined i j = spine i j.
Proof. intros H H'. unfold joined. destruct (Nat.eqb_spec j (S i)); [contradiction|]. destruct (Nat.eqb_spec j i); [contradiction|reflexivity]. Qed.

Lemma before_lt i k : before i = Some k -> (k < i)%nat.
Proof. destruct i; cbn; [discriminate|]. intro E. injection E. lia. Qed.

Lemma before_ne i : ptr_eqb (before i) (Some (S i)) = false.
Proof. destruct i; cbn; [reflexivity|]. apply Nat.eqb_neq. lia. Qed.

Lemma push_up_linked i : (S i < N)%nat -> push_up (hp (linked i)) (S i) = Ok (hp (linked i)).
Proof.
  intro H. unfold push_up. rewrite ld_hp by exact H. cbn [bind]. rewrite linked_new. cbn [n_c0 n_c1 n_val bind]. rewrite modi_hp by exact H.
  apply hp_same. intro j. destruct (Nat.eqb_spec j (S i)) as [->|]; [rewrite linked_new|]; reflexivity.
Qed.

(** [push_up] of a node with the given left child, value 0, every minimum at 0 *)
Lemma push_up_node g x y fa c1 m0 : (x < N)%nat -> g x = mkNode fa (Some y) c1 m0 0 0 -> (y < N)%nat -> n_min (g y) = (0, Some 0%nat) ->
  match c1 with Some z => (z < N)%nat /\ fst (n_min (g z)) = 0 | None => True end ->
  push_up (hp g) x = Ok (hp (fun j => if Nat.eqb j x then mkNode fa (Some y) c1 (0, Some 0%nat) 0 0 else g j)).
Proof.
  intros H E Hy Ey Hz. unfold push_up. rewrite ld_hp by exact H. cbn [bind]. rewrite E. cbn [n_c0 n_c1 n_val]. rewrite ld_hp by exact Hy. cbn [bind]. rewrite Ey. cbn [fst].
  change (dle 0 0) with true. cbn iota.
  assert (G : match c1 with None => Ok (0, Some 0%nat) | Some c => nc <- ld (hp g) c ;; Ok (if dlt (fst (n_min nc)) (fst (0, Some 0%nat)) then n_min nc else (0, Some 0%nat)) end = Ok (0, Some 0%nat)).
  { destruct c1 as [z|]; [|reflexivity]. destruct Hz as [Hz E0]. rewrite ld_hp by exact Hz. cbn [bind]. rewrite E0. reflexivity. }
  rewrite G. cbn [bind]. rewrite modi_hp by exact H. rewrite E. reflexivity.
Qed.

Lemma push_up_bottom g x fa c1 m0 : (x < N)%nat -> g x = mkNode fa None c1 m0 0 0 ->
  match c1 with Some z => (z < N)%nat /\ fst (n_min (g z)) = 0 | None => True end ->
  push_up (hp g) x = Ok (hp (fun j => if Nat.eqb j x then mkNode fa None c1 (0, Some x) 0 0 else g j)).
Proof.
  intros H E Hz. unfold push_up. rewrite ld_hp by exact H. cbn [bind]. rewrite E. cbn [n_c0 n_c1 n_val bind].
  assert (G : match c1 with None => Ok (0, Some x) | Some c => nc <- ld (hp g) c ;; Ok (if dlt (fst (n_min nc)) (fst (0, Some x)) then n_min nc else (0, Some x)) end = Ok (0, Some x)).
  { destruct c1 as [z|]; [|reflexivity]. destruct Hz as [Hz E0]. rewrite ld_hp by exact Hz. cbn [bind]. rewrite E0. reflexivity. }
  rewrite G. cbn [bind]. rewrite modi_hp by exact H. rewrite E. reflexivity.
Qed.

(** push_up of the (old) top of the spine, whatever hangs on its right *)
Lemma push_up_top g i fa c1 m0 : (i < N)%nat -> g i = mkNode fa (before i) c1 m0 0 0 -> (forall j, (j < i)%nat -> g j = spine i j) ->
  match c1 with Some z => (z < N)%nat /\ fst (n_min (g z)) = 0 | None => True end ->
  push_up (hp g) i = Ok (hp (fun j => if Nat.eqb j i then mkNode fa (before i) c1 (0, Some 0%nat) 0 0 else g j)).
Proof.
  intros H E HB Hz. destruct i as [|i]; cbn [before] in *.
  - exact (push_up_bottom g 0 fa c1 m0 H E Hz).
  - apply (push_up_node g (S i) i fa c1 m0 H E); [lia| |exact Hz]. rewrite HB by lia. rewrite spine_below by lia. reflexivity.
Qed.

Lemma access_loop_linked f f' i : (S i < N)%nat -> access_loop (S f) (S (S f')) (hp (linked i)) (Some (S i)) None = Ok (hp (joined i)).
Proof.
  intro H. cbn [access_loop]. rewrite splay_root; [|exact H| |rewrite linked_new; reflexivity].
  2: { apply (is_root_path _ _ i); [exact H|lia|rewrite linked_new; reflexivity| |]; rewrite linked_old by lia; rewrite spine_top; cbn [n_c0 n_c1]; [apply before_ne|reflexivity]. }
  rewrite push_up_linked by exact H. cbn [bind]. unfold setc at 1. rewrite modi_hp by exact H. cbn [bind].
  rewrite (hp_ext _ (linked i)) by (intro j; destruct (Nat.eqb_spec j (S i)) as [->|]; [rewrite linked_new|]; reflexivity).
  rewrite push_up_linked by exact H. cbn [bind]. rewrite ld_hp by exact H. cbn [bind]. rewrite linked_new. cbn [n_fa].
  assert (Ei : linked i i = mkNode None (before i) None (0, Some 0%nat) 0 0) by (rewrite linked_old by lia; apply spine_top).
  rewrite splay_root; [|lia|apply is_root_top; [lia|rewrite Ei; reflexivity]|rewrite Ei; reflexivity].
  rewrite (push_up_top (linked i) i None None (0, Some 0%nat)); [|lia|exact Ei|intros j Hj; apply linked_old; lia|exact I]. cbn [bind].
  rewrite (hp_ext _ (linked i)) by (intro j; destruct (Nat.eqb_spec j i) as [->|]; [rewrite Ei|]; reflexivity).
  unfold setc. rewrite modi_hp by lia. cbn [bind]. rewrite modi_hp by exact H. cbn [bind].
  rewrite (hp_ext _ (joined i)).
  2: { intro j. destruct (Nat.eqb_spec (S i) i); [lia|]. rewrite linked_new, Ei. destruct (Nat.eqb_spec j (S i)) as [->|Hn]; [rewrite joined_new; reflexivity|].
       destruct (Nat.eqb_spec j i) as [->|Hn']; [rewrite joined_top; reflexivity|]. rewrite linked_old, joined_old by auto. reflexivity. }
  rewrite (push_up_top (joined i) i None (Some (S i)) (0, Some 0%nat)); [|lia|apply joined_top|intros j Hj; apply joined_old; lia|split; [exact H|rewrite joined_new; reflexivity]].
  cbn [bind]. rewrite (hp_ext _ (joined i)) by (intro j; destruct (Nat.eqb_spec j i) as [->|]; [rewrite joined_top|]; reflexivity).
  rewrite ld_hp by lia. cbn [bind]. rewrite joined_top. cbn [n_fa]. destruct f'; reflexivity.
Qed.

Lemma rot_joined i : (S i < N)%nat -> rot (hp (joined i)) (S i) = Ok (hp (fun j => if Nat.eqb j (S i) then mkNode None (Some i) None (0, Some (S i)) 0 0 else spine (S i) j)).
Proof.
  intro H. unfold rot. rewrite ld_hp by exact H. cbn [bind]. rewrite joined_new. cbn [n_fa ch negb n_c0]. rewrite ld_hp by lia. cbn [bind]. rewrite joined_top. cbn [n_fa].
  unfold dir. rewrite ld_hp by exact H. cbn [bind]. rewrite joined_new. cbn [n_fa]. rewrite ld_hp by lia. cbn [bind]. rewrite joined_top. cbn [n_c1 ptr_eqb]. rewrite Nat.eqb_refl. cbn [bind negb ch n_c0].
  unfold setc. rewrite modi_hp by lia. cbn [bind]. rewrite modi_hp by exact H. cbn [bind]. rewrite modi_hp by lia. cbn [bind]. rewrite modi_hp by exact H. cbn [bind].
  assert (X1 : Nat.eqb (S i) i = false) by (apply Nat.eqb_neq; lia). assert (X2 : Nat.eqb i (S i) = false) by (apply Nat.eqb_neq; lia).
  rewrite ?Nat.eqb_refl, ?X1, ?X2, ?Nat.eqb_refl, joined_new, joined_top. cbn [set_ch_ set_fa_ n_fa n_c0 n_c1 n_min n_val n_add].
  rewrite (push_up_top _ i (Some (S i)) None (0, Some 0%nat)); [|lia| | |exact I].
  - apply hp_same. intro j. rewrite ?Nat.eqb_refl, ?X1, ?X2. destruct (Nat.eqb_spec j i) as [->|Hn].
    + rewrite X2, spine_below by lia. reflexivity.
    + destruct (Nat.eqb_spec j (S i)) as [->|Hn']; [reflexivity|]. rewrite joined_old by auto.
      destruct (Nat.lt_ge_cases j i) as [L|L]; [rewrite !spine_below by lia; reflexivity|rewrite !spine_far by lia; reflexivity].
  - cbn beta. rewrite ?Nat.eqb_refl, ?X1, ?X2. reflexivity.
  - intros j Hj. cbn beta. destruct (Nat.eqb_spec j (S i)); [lia|]. destruct (Nat.eqb_spec j i); [lia|]. apply joined_old; lia.
Qed.

Lemma access_linked f i : (S i < N)%nat -> access (S (S f)) (hp (linked i)) (S i) = Ok (hp (spine (S i))).
Proof.
  intro H. unfold access. rewrite access_loop_linked by exact H. cbn [bind]. unfold splay.
  assert (R1 : is_root (hp (joined i)) (S i) = Ok false).
  { unfold is_root. rewrite ld_hp by exact H. cbn [bind]. rewrite joined_new. cbn [n_fa]. rewrite ld_hp by lia. cbn [bind]. rewrite joined_top. cbn [n_c0 n_c1 ptr_eqb]. rewrite Nat.eqb_refl, andb_false_r. reflexivity. }
  assert (R2 : is_root (hp (joined i)) i = Ok true) by (apply is_root_top; [lia|rewrite joined_top; reflexivity]).
  cbn [push_down_from_root]. rewrite R1. cbn [bind]. rewrite ld_hp by exact H. cbn [bind]. rewrite joined_new. cbn [n_fa].
  rewrite R2. cbn [bind]. rewrite push_down_clean by (try lia; rewrite joined_top; reflexivity). cbn [bind]. rewrite push_down_clean by (try lia; rewrite joined_new; reflexivity). cbn [bind].
  cbn [splay_loop]. rewrite R1. cbn [bind]. rewrite ld_hp by exact H. cbn [bind]. rewrite joined_new. cbn [n_fa]. rewrite R2. cbn [bind]. rewrite rot_joined by exact H. cbn [bind].
  rewrite is_root_top by (try exact H; rewrite Nat.eqb_refl; reflexivity). cbn [bind].
  rewrite (push_up_node _ (S i) i None None (0, Some (S i))); [|exact H|rewrite Nat.eqb_refl; reflexivity|lia| |exact I].
  - apply hp_same. intro j. destruct (Nat.eqb_spec j (S i)) as [->|]; [rewrite spine_top|]; reflexivity.
  - assert (X2 : Nat.eqb i (S i) = false) by (apply Nat.eqb_neq; lia). rewrite X2, spine_below by lia. reflexivity.
Qed.

Lemma start f : (0 < N)%nat -> find_root (S f) (repeat node0 N) 0 = Ok (hp (spine 0), 0%nat).
Proof.
  intro H. assert (E : repeat node0 N = hp (fun _ => node0)).
  { unfold hp. clear. generalize 0%nat. induction N as [|k IH]; intro s; cbn; [reflexivity|]. f_equal. apply IH. }
  rewrite E. assert (P : push_up (hp (fun _ => node0)) 0 = Ok (hp (spine 0))).
  { rewrite (push_up_bottom (fun _ => node0) 0 None None (0, None)); [|exact H|reflexivity|exact I]. apply hp_same. intro j.
    destruct (Nat.eqb_spec j 0) as [->|]; [rewrite spine_top|rewrite spine_far by lia]; reflexivity. }
  unfold find_root, access. cbn [access_loop]. rewrite splay_root; [|exact H|apply is_root_top; [exact H|reflexivity]|reflexivity]. rewrite P. cbn [bind].
  unfold setc. rewrite modi_hp by exact H. cbn [bind]. rewrite (hp_ext _ (spine 0)) by (intro j; destruct (Nat.eqb_spec j 0) as [->|]; [rewrite spine_top|]; reflexivity).
  rewrite push_up_spine by exact H. cbn [bind]. rewrite ld_hp by exact H. cbn [bind]. rewrite spine_top. cbn [n_fa].
  replace (access_loop (S f) f (hp (spine 0)) None (Some 0%nat)) with (Ok (hp (spine 0))) by (destruct f; reflexivity). cbn [bind].
  rewrite splay_root; [|exact H|apply is_root_top; [exact H|rewrite spine_top; reflexivity]|rewrite spine_top; reflexivity]. rewrite push_up_spine by exact H. cbn [bind].
  rewrite leftmost_spine by lia. reflexivity.
Qed.

Lemma calls_app f os1 os2 h : lct_calls one f h (os1 ++ os2) = (' (h1, r1) <- lct_calls one f h os1 ;; ' (h2, r2) <- lct_calls one f h1 os2 ;; Ok (h2, r1 ++ r2)).
Proof.
  revert h. induction os1 as [|o os1 IH]; intro h; cbn [app lct_calls bind].
  - destruct (lct_calls one f h os2) as [[h2 r2]|]; reflexivity.
  - destruct (lct_call one f h o) as [[h1 o1]|]; cbn [bind]; [|reflexivity]. rewrite IH. destruct (lct_calls one f h1 os1) as [[h2 r2]|]; cbn [bind]; [|reflexivity].
    destruct (lct_calls one f h2 os2) as [[h3 r3]|]; reflexivity.
Qed.

Lemma grow_ok f i : (S i < N)%nat -> (S i < f)%nat -> lct_calls one f (hp (spine i)) (grow i) = Ok (hp (spine (S i)), [ONone; ONode 0]).
Proof.
  intros H Hf. destruct f as [|[|f]]; [lia|lia|]. unfold grow. cbn [lct_calls lct_call]. rewrite set_fa_spine by exact H. cbn [bind].
  unfold find_root. rewrite access_linked by exact H. cbn [bind]. rewrite leftmost_spine by lia. destruct (Nat.ltb_spec (S i) (S (S f))); [|lia]. reflexivity.
Qed.

Lemma chain_calls f : forall n, (n < N)%nat -> (n < f)%nat -> lct_calls one f (repeat node0 N) (chain_ops n) = Ok (hp (spine n), chain_outs n).
Proof.
  induction n as [|n IH]; intros H Hf.
  - destruct f; [lia|]. unfold chain_ops. cbn [seq flat_map lct_calls lct_call]. rewrite start by exact H. reflexivity.
  - unfold chain_ops, chain_outs. rewrite seq_S, !flat_map_app, Nat.add_0_l. cbn [flat_map]. rewrite !app_nil_r. rewrite !app_comm_cons. fold (chain_ops n) (chain_outs n).
    rewrite calls_app. rewrite IH by lia. cbn [bind]. rewrite grow_ok by lia. reflexivity.
Qed.

(** ** The plain forest *)
Lemma chain_path n x : (x <= n)%nat -> path (parent (chain n)) x (rev (seq 0 (S x))).
Proof.
  intro H. induction x as [|x IH].
  - apply path_root. reflexivity.
  - rewrite seq_S, rev_app_distr. cbn [rev app]. rewrite Nat.add_0_l. apply (path_up _ _ x); [|apply IH; lia]. cbn [chain parent]. destruct (Nat.leb_spec (S x) n); [reflexivity|lia].
Qed.

Lemma path_same par par' x l : (forall j, par j = par' j) -> path par x l -> path par' x l.
Proof. intros E H. induction H as [x H|x y l H HP IH]; [apply path_root; rewrite <- E; exact H|apply (path_up _ _ y); [rewrite <- E; exact H|exact IH]]. Qed.

Lemma run_app f os1 f1 r1 os2 f2 r2 : lct_run N f os1 f1 r1 -> lct_run N f1 os2 f2 r2 -> lct_run N f (os1 ++ os2) f2 (r1 ++ r2).
Proof. intro H. induction H as [f|f op f1 o ops f3 os HS HR IH]; intro H2; [exact H2|]. cbn [app]. eapply run_cons; [exact HS|auto]. Qed.

Lemma rev_seq_last x : rev (seq 0 (S x)) = rev (seq 1 x) ++ [0%nat].
Proof. reflexivity. Qed.

Lemma chain_run : forall n, (n < N)%nat -> exists f, lct_run N forest0 (chain_ops n) f (chain_outs n) /\ forall j, parent f j = parent (chain n) j.
Proof.
  induction n as [|n IH]; intro H.
  - exists forest0. split; [|intro j; cbn; destruct (Nat.leb_spec j 0); [destruct j; [reflexivity|lia]|reflexivity]].
    eapply run_cons; [|apply run_nil]. apply (step_find_root N forest0 0 []); [exact H|]. apply path_root. reflexivity.
  - destruct (IH ltac:(lia)) as (f & HR & HP). exists (mkForest (set_parent (parent f) (S n) (Some n)) (value f)).
    assert (HP' : forall j, set_parent (parent f) (S n) (Some n) j = parent (chain (S n)) j).
    { intro j. unfold set_parent. destruct (Nat.eqb_spec j (S n)) as [->|Hn].
      - cbn [chain parent]. rewrite Nat.leb_refl. reflexivity.
      - rewrite HP. cbn [chain parent]. destruct (Nat.leb_spec j n), (Nat.leb_spec j (S n)); reflexivity || lia. }
    split; [|exact HP'].
    unfold chain_ops, chain_outs. rewrite seq_S, !flat_map_app, Nat.add_0_l. cbn [flat_map]. rewrite !app_nil_r. rewrite !app_comm_cons. fold (chain_ops n) (chain_outs n).
    eapply run_app; [exact HR|]. eapply run_cons; [|eapply run_cons; [|apply run_nil]].
    + apply (step_set_fa N f (S n) n (rev (seq 0 (S n)))); [exact H|lia| | |].
      * rewrite HP. cbn [chain parent]. destruct (Nat.leb_spec (S n) n); [lia|reflexivity].
      * apply (path_same (parent (chain n))); [intro j; symmetry; apply HP|]. apply chain_path. lia.
      * rewrite <- in_rev, in_seq. lia.
    + apply (step_find_root N _ (S n) (rev (seq 1 (S n)))); [exact H|]. cbn [parent]. apply (path_same (parent (chain (S n)))); [intro j; symmetry; apply HP'|].
      rewrite <- rev_seq_last. apply chain_path. lia.
Qed.

Lemma repeat_roots h x r m f : find_root f h x = Ok (h, r) -> lct_calls one f h (repeat (FindRoot x) m) = Ok (h, repeat (ONode r) m).
Proof. intro E. induction m as [|m IH]; cbn [repeat lct_calls lct_call]; [reflexivity|]. rewrite E. cbn [bind]. rewrite IH. reflexivity. Qed.

Lemma chain_ops_length n : length (chain_ops n) = S (2 * n).
Proof.
  unfold chain_ops. cbn [length]. f_equal.
  assert (G : forall s, length (flat_map grow (seq s n)) = (2 * n)%nat); [|apply G].
  induction n as [|n IH]; intro s; cbn [seq flat_map grow app length]; [reflexivity|]. rewrite IH. lia.
Qed.

Theorem chain_linear n : (0 < n < N)%nat ->
  exists os outs f h, length os = S (2 * n) /\ lct_run N forest0 os f outs /\
    (forall fuel, (n < fuel)%nat -> lct_calls one fuel (repeat node0 N) os = Ok (h, outs)) /\
    (forall k, (k <= n)%nat -> find_root k h n = Err OutOfFuel /\ get_min_wtrbnr k h n = Err OutOfFuel) /\
    (forall k, (n < k)%nat -> find_root k h n = Ok (h, 0%nat) /\ get_min_wtrbnr k h n = Ok (h, (0, Some 1%nat))) /\
    (forall fuel m, (n < fuel)%nat -> lct_calls one fuel h (repeat (FindRoot n) m) = Ok (h, repeat (ONode 0) m)).
Proof.
  intros [H0 H]. destruct (chain_run n H) as (f & HR & _). exists (chain_ops n), (chain_outs n), f, (hp (spine n)).
  assert (A : forall k, (n < k)%nat -> find_root k (hp (spine n)) n = Ok (hp (spine n), 0%nat)).
  { intros k Hk. rewrite find_root_spine by exact H. destruct (Nat.ltb_spec n k); [reflexivity|lia]. }
  split; [apply chain_ops_length|]. split; [exact HR|]. split; [intros fuel Hf; apply chain_calls; auto|]. split; [|split].
  - intros k Hk. rewrite find_root_spine, get_min_chain by auto. destruct (Nat.ltb_spec n k); [lia|]. auto.
  - intros k Hk. rewrite A, get_min_chain by auto. destruct (Nat.ltb_spec n k); [|lia]. auto.
  - intros fuel m Hf. apply repeat_roots. apply A. exact Hf.
Qed.

(** ** Depth of the recursion [push_down_from_root] *)
Lemma depth_spine n : (n < N)%nat -> forall d x k, (x + d = n)%nat -> (k <= d)%nat -> push_down_from_root k (hp (spine n)) x = Err OutOfFuel.
Proof.
  intro H. induction d as [|d IH]; intros x k Hx Hk; (destruct k as [|k]; [reflexivity|]); [lia|]. cbn [push_down_from_root].
  assert (E : spine n (S x) = mkNode (if Nat.eqb (S x) n then None else Some (S (S x))) (Some x) None (0, Some 0%nat) 0 0).
  { destruct (Nat.eqb_spec (S x) n) as [<-|]; [apply spine_top|apply spine_below; lia]. }
  unfold is_root. rewrite ld_hp by lia. cbn [bind]. rewrite spine_below by lia. cbn [n_fa]. rewrite ld_hp by lia. cbn [bind]. rewrite E. cbn [n_c0 n_c1 ptr_eqb].
  rewrite Nat.eqb_refl. cbn [negb andb bind]. rewrite (IH (S x) k) by lia. reflexivity.
Qed.

Lemma depth_enough n : (n < N)%nat -> forall d x k, (x + d = n)%nat -> (d < k)%nat -> push_down_from_root k (hp (spine n)) x = Ok (hp (spine n)).
Proof.
  intro H. induction d as [|d IH]; intros x k Hx Hk; (destruct k as [|k]; [lia|]); cbn [push_down_from_root].
  - replace x with n by lia. rewrite is_root_top by (try exact H; rewrite spine_top; reflexivity). cbn [bind]. apply push_down_clean; [exact H|rewrite spine_top; reflexivity].
  - assert (E : spine n (S x) = mkNode (if Nat.eqb (S x) n then None else Some (S (S x))) (Some x) None (0, Some 0%nat) 0 0).
    { destruct (Nat.eqb_spec (S x) n) as [<-|]; [apply spine_top|apply spine_below; lia]. }
    unfold is_root. rewrite ld_hp by lia. cbn [bind]. rewrite spine_below by lia. cbn [n_fa]. rewrite ld_hp by lia. cbn [bind]. rewrite E. cbn [n_c0 n_c1 ptr_eqb].
    rewrite Nat.eqb_refl. cbn [negb andb bind]. rewrite (IH (S x) k) by lia. cbn [bind]. apply push_down_clean; [lia|rewrite spine_below by lia; reflexivity].
Qed.

Theorem chain_depth n : (0 < n < N)%nat ->
  exists os outs f h, length os = S (2 * n) /\ lct_run N forest0 os f outs /\
    (forall fuel, (n < fuel)%nat -> lct_calls one fuel (repeat node0 N) os = Ok (h, outs)) /\
    (forall k, (k <= n)%nat -> push_down_from_root k h 0 = Err OutOfFuel /\ find_root k h 0 = Err OutOfFuel) /\
    (forall k, (n < k)%nat -> push_down_from_root k h 0 = Ok h).
Proof.
  intros [H0 H]. destruct (chain_run n H) as (f & HR & _). exists (chain_ops n), (chain_outs n), f, (hp (spine n)).
  split; [apply chain_ops_length|]. split; [exact HR|]. split; [intros fuel Hf; apply chain_calls; auto|]. split.
  - intros k Hk. assert (E : push_down_from_root k (hp (spine n)) 0 = Err OutOfFuel) by (apply (depth_spine n H n 0 k); lia). split; [exact E|].
    unfold find_root, access, splay. destruct k as [|k]; [reflexivity|]. cbn [access_loop]. unfold splay. rewrite E. reflexivity.
  - intros k Hk. apply (depth_enough n H n 0 k); lia.
Qed.
End Linear.
