(** * Cost functions that remember their answers, and one that does not stick to them *)
From Verif Require Import Base Data ProblemDefine Flow ProblemSolver Spec ExampleData MemRun MemSpec MemSim.
Local Open Scope Z_scope.

(** ** A cache: triples of a function's number, an argument and the answer *)
Definition cache : Type := list (nat * Z * Z).
Fixpoint lookup (c : cache) (k : nat) (x : Z) : option Z :=
  match c with
  | [] => None
  | (k', x', v) :: c => if Nat.eqb k k' && (x =? x') then Some v else lookup c k x
  end.
(** a call computes only what is not in the cache *)
Definition cached (k : nat) (g : Fn Z) : Fn (mem cache Z) := fun x => Ok (fun c =>
  match lookup c k x with
  | Some v => Ok (v, c)
  | None => v <- g x ;; Ok (v, (k, x, v) :: c)
  end).
Fixpoint cached_mus (k : nat) (mus : list (MuLimit Z)) : list (MuLimit (mem cache Z)) :=
  match mus with [] => [] | m :: mus => mkMu (m_l m) (m_u m) (cached k (m_fn m)) :: cached_mus (S k) mus end.
Fixpoint cached_oms (k : nat) (oms : list (OmegaLimit Z)) : list (OmegaLimit (mem cache Z)) :=
  match oms with
  | [] => []
  | o :: oms => mkOm (o_l o) (o_u o) (cached k (o_fn o)) (o_i o) (o_j o) :: cached_oms (S k) oms
  end.
(** all entries are right; the functions are [fs] *)
Definition right (fs : list (Fn Z)) (c : cache) : Prop :=
  Forall (fun '(k, x, v) => exists g, nth_error fs k = Some g /\ g x = Ok v) c.

Lemma lookup_in c k x v : lookup c k x = Some v -> In (k, x, v) c.
Proof.
  induction c as [|[[k' x'] v'] c IH]; cbn [lookup]; [discriminate|]. destruct (Nat.eqb k k' && (x =? x')) eqn:E.
  - apply andb_prop in E. destruct E as [E1 E2]. apply Nat.eqb_eq in E1. apply Z.eqb_eq in E2. subst. intro H. inversion H. left. reflexivity.
  - intro H. right. auto.
Qed.
Lemma cached_answers fs k g P l u : nth_error fs k = Some g -> answers (right fs) P l u (cached k g) g.
Proof.
  intros E x v c _ Ev Hc. eexists. destruct (lookup c k x) as [w|] eqn:El.
  - exists c. split; [reflexivity|]. cbv beta. rewrite El. split; [|exact Hc]. apply f_equal. apply f_equal2; [|reflexivity]. apply lookup_in in El. unfold right in Hc. rewrite Forall_forall in Hc. destruct (Hc _ El) as (g' & E1 & E2). congruence.
  - exists ((k, x, v) :: c). split; [reflexivity|]. cbv beta. rewrite El, Ev. split; [reflexivity|]. constructor; eauto.
Qed.
Definition fns (mus : list (MuLimit Z)) (oms : list (OmegaLimit Z)) : list (Fn Z) := map m_fn mus ++ map o_fn oms.
Lemma cached_mus_answer P mus oms : Forall2 (mu_answers (right (fns mus oms)) P) (cached_mus 0 mus) mus.
Proof.
  assert (X : forall mus pre suf, Forall2 (mu_answers (right (pre ++ map m_fn mus ++ suf)) P) (cached_mus (length pre) mus) mus).
  { clear. induction mus as [|m mus IH]; intros pre suf; cbn [cached_mus map]; constructor.
    - split; [reflexivity|split; [reflexivity|]]. apply cached_answers. rewrite nth_error_app2, Nat.sub_diag by lia. reflexivity.
    - specialize (IH (pre ++ [m_fn m]) suf). rewrite app_length, <- app_assoc in IH. cbn [length app] in IH. rewrite Nat.add_1_r in IH. exact IH. }
  exact (X mus [] (map o_fn oms)).
Qed.
Lemma cached_oms_answer P mus oms : Forall2 (om_answers (right (fns mus oms)) P) (cached_oms (length mus) oms) oms.
Proof.
  assert (X : forall oms pre, Forall2 (om_answers (right (pre ++ map o_fn oms)) P) (cached_oms (length pre) oms) oms).
  { clear. induction oms as [|m oms IH]; intros pre; cbn [cached_oms map]; constructor.
    - repeat (split; [reflexivity|]). apply cached_answers. rewrite nth_error_app2, Nat.sub_diag by lia. reflexivity.
    - specialize (IH (pre ++ [o_fn m])). rewrite app_length, <- app_assoc in IH. cbn [length app] in IH. rewrite Nat.add_1_r in IH. exact IH. }
  assert (Y := X oms (map m_fn mus)). rewrite map_length in Y. exact Y.
Qed.

(** ** A function that changes its mind: the state counts the calls, the i-th call
    answers with the i-th number of [h], 0 at the end of [h] *)
Definition fickle (h : list Z) : Fn (mem nat Z) := fun _ => Ok (fun i => Ok (nth i h 0, S i)).
Definition one_variable (h : list Z) : list (MuLimit (mem nat Z)) := [mkMu 0 0 (fickle h); mkMu 0 1 (fickle h)].
Lemma fickle_nullopt : exists h, Forall (fun v => v = 0 \/ v = 5) h /\ length h = 14%nat /\
  @run_solver_m nat Z (exact_ops 1) (fun _ => true) 100 1 (one_variable h) [] 0%nat = Ok (None, 17%nat).
Proof. exists [0; 0; 0; 0; 0; 0; 0; 0; 0; 0; 0; 0; 0; 5]. split; [repeat (apply Forall_cons; [auto|]); apply Forall_nil|]. split; [reflexivity|vm_compute; reflexivity]. Qed.
Lemma fickle_negative : exists h, Forall (fun v => v = 0 \/ v = 5) h /\
  exists k, @run_solver_m nat Z (exact_ops 1) (fun _ => true) 100 1 (one_variable h) [] 0%nat = Ok (Some (-5), k).
Proof. exists [0; 0; 5; 0; 0; 0; 0; 5; 0; 0; 0; 0; 5; 0]. split; [repeat (apply Forall_cons; [auto|]); apply Forall_nil|]. exists 31%nat. vm_compute. reflexivity. Qed.
