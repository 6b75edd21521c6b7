(** * What prettyPrint prints determines the numbers of the graph *)
From Coq Require Import Strings.String Strings.Ascii.
From Coq Require Import Numbers.DecimalString Numbers.DecimalZ Numbers.DecimalPos.
From Verif Require Import Base ProblemDefine Printing.

(** ** Digits *)
Lemma chars_inj a b : chars a = chars b -> a = b.
Proof. intro H. rewrite <- (string_of_list_ascii_of_string a), <- (string_of_list_ascii_of_string b). unfold chars in H. rewrite H. reflexivity. Qed.

Lemma to_int_parse z : NilZero.int_of_string (NilZero.string_of_int (Z.to_int z)) = Some (Z.to_int z).
Proof.
  apply NilZero.isi; destruct z as [|p|p]; cbn [Z.to_int]; try discriminate; intro H; injection H as H; exact (Unsigned.to_uint_nonnil p H).
Qed.

Lemma show_inj z z' : show z = show z' -> z = z'.
Proof.
  intro H. unfold show in H. apply chars_inj in H. apply DecimalZ.to_int_inj. assert (A := to_int_parse z). rewrite H, to_int_parse in A. congruence.
Qed.

Definition plain (c : ascii) : Prop := c <> ","%char /\ c <> ";"%char.

Lemma uint_plain d c : In c (chars (NilEmpty.string_of_uint d)) -> plain c.
Proof. induction d; cbn; [intros []|..]; (intros [<-|H]; [split; discriminate|auto]). Qed.

Lemma show_plain z : Forall plain (show z).
Proof.
  apply Forall_forall. intros c. unfold show, NilZero.string_of_int, NilZero.string_of_uint. destruct (Z.to_int z) as [d|d].
  - destruct d; try apply uint_plain. intros [<-|[]]. split; discriminate.
  - cbn [chars list_ascii_of_string In]. intros [<-|H]; [split; discriminate|]. destruct d; try (revert H; apply uint_plain).
    destruct H as [<-|[]]. split; discriminate.
Qed.

Lemma split_at (P : ascii -> Prop) (a b r r' : list ascii) d : (forall c, P c -> c <> d) -> Forall P a -> Forall P b ->
  a ++ d :: r = b ++ d :: r' -> a = b /\ r = r'.
Proof.
  intro HP. revert b. induction a as [|x a IH]; intros [|y b] HA HB E; cbn in E.
  - injection E as ->. auto.
  - injection E as -> _. inversion HB as [|? ? X _]; subst. destruct (HP _ X eq_refl).
  - injection E as -> _. inversion HA as [|? ? X _]; subst. destruct (HP _ X eq_refl).
  - injection E as -> E. inversion HA; inversion HB; subst. destruct (IH b H2 H6 E) as [-> ->]. auto.
Qed.

Lemma show_comma z z' r r' : show z ++ ","%char :: r = show z' ++ ","%char :: r' -> z = z' /\ r = r'.
Proof.
  intro E. apply (split_at plain) in E; [|intros c [H _]; exact H|apply show_plain|apply show_plain]. destruct E as [E ->]. split; [apply show_inj; exact E|reflexivity].
Qed.

Lemma show_semi z z' r r' : show z ++ ";"%char :: r = show z' ++ ";"%char :: r' -> z = z' /\ r = r'.
Proof.
  intro E. apply (split_at plain) in E; [|intros c [_ H]; exact H|apply show_plain|apply show_plain]. destruct E as [E ->]. split; [apply show_inj; exact E|reflexivity].
Qed.

Section Print.
Context {D : Type}.

Definition node_numbers (m : MuLimit D) : Z * Z := (m_l m, m_u m).
Definition edge_numbers (o : OmegaLimit D) : nat * nat * Z * Z := (o_i o, o_j o, o_l o, o_u o).

Ltac crunch E := repeat first [rewrite <- app_assoc in E | progress cbn [chars list_ascii_of_string app] in E].

Lemma node_split (m m' : MuLimit D) r r' : print_node m ++ r = print_node m' ++ r' -> node_numbers m = node_numbers m' /\ r = r'.
Proof.
  intro E. unfold print_node in E. crunch E. injection E as E. apply show_comma in E. destruct E as [H1 E]. injection E as E.
  apply show_comma in E. destruct E as [H2 E]. injection E as E. unfold node_numbers. rewrite H1, H2. auto.
Qed.

Lemma edge_split (m m' : OmegaLimit D) r r' : print_edge m ++ r = print_edge m' ++ r' -> edge_numbers m = edge_numbers m' /\ r = r'.
Proof.
  intro E. unfold print_edge, show_size in E. crunch E. injection E as E.
  apply show_comma in E. destruct E as [H1 E]. injection E as E. apply show_comma in E. destruct E as [H2 E]. injection E as E.
  apply show_comma in E. destruct E as [H3 E]. injection E as E. apply show_comma in E. destruct E as [H4 E]. injection E as E.
  unfold edge_numbers. apply Nat2Z.inj in H1, H2. rewrite H1, H2, H3, H4. auto.
Qed.

Lemma print_node_head (m : MuLimit D) : exists r, print_node m = "{"%char :: r.
Proof. eexists. reflexivity. Qed.
Lemma print_edge_head (m : OmegaLimit D) : exists r, print_edge m = "{"%char :: r.
Proof. eexists. reflexivity. Qed.

Lemma list_split {A B} (pr : A -> list ascii) (num : A -> B) :
  (forall a, exists r, pr a = "{"%char :: r) -> (forall a a' r r', pr a ++ r = pr a' ++ r' -> num a = num a' /\ r = r') ->
  forall l l' r r', flat_map pr l ++ "}"%char :: r = flat_map pr l' ++ "}"%char :: r' -> map num l = map num l' /\ r = r'.
Proof.
  intros Hh Hs. induction l as [|a l IH]; intros [|a' l'] r r' E; cbn [flat_map app] in E.
  - injection E as ->. auto.
  - destruct (Hh a') as [x X]. rewrite X in E. discriminate.
  - destruct (Hh a) as [x X]. rewrite X in E. discriminate.
  - rewrite <- !app_assoc in E. apply Hs in E. destruct E as [E1 E2]. apply IH in E2. destruct E2 as [E2 ->]. cbn [map]. rewrite E1, E2. auto.
Qed.

Theorem print_determines n m n' m' (nodes nodes' : list (MuLimit D)) (edges edges' : list (OmegaLimit D)) out :
  pretty_print [] n m nodes edges out = pretty_print [] n' m' nodes' edges' out ->
  n = n' /\ m = m' /\ map node_numbers nodes = map node_numbers nodes' /\ map edge_numbers edges = map edge_numbers edges'.
Proof.
  unfold pretty_print. intro E. apply app_inv_head in E. cbn [chars list_ascii_of_string app] in E. injection E as E.
  apply show_semi in E. destruct E as [-> E]. injection E as E.
  apply (list_split _ _ print_node_head node_split) in E. destruct E as [H1 E]. injection E as E.
  apply show_semi in E. destruct E as [-> E]. injection E as E.
  apply (list_split _ _ print_edge_head edge_split) in E. destruct E as [H2 _]. auto.
Qed.

Theorem print_appends info n m (nodes : list (MuLimit D)) (edges : list (OmegaLimit D)) out :
  exists text, text <> [] /\ (info <> [] -> text = info) /\ forall o, pretty_print info n m nodes edges (out ++ o) = out ++ o ++ text.
Proof.
  destruct info as [|c info].
  - eexists. split; [|split; [intro H; destruct (H eq_refl)|]]; [|intro o; unfold pretty_print; rewrite <- app_assoc; reflexivity]. discriminate.
  - exists (c :: info). split; [discriminate|]. split; [reflexivity|]. intro o. unfold pretty_print. rewrite <- app_assoc. reflexivity.
Qed.
End Print.
