(* Examples for Pair_Model: exact rational numbers in canonical form. *)
From Coq Require Import String QArith Qcanon.
From Verif Require Import Base Expr_Model Expr_Spec Expr_Proofs ExprOpt_Proofs Print_Model Print_Spec Print_Examples Pair_Model.
Open Scope Z_scope.

Definition qc : nsys Qc :=
  mkNsys Qc Q2Qc (fun _ => 0%Qc) (fun s => if String.eqb s "a" then Q2Qc (3 # 4) else Q2Qc (1 # 2)) (fun _ _ => 0%Qc)
    (fun f l => match l with [x] => if String.eqb f "sin" then (x + 1)%Qc else (x * (1 + 1))%Qc | _ => 0%Qc end)
    Qcopp Qcminus Qcdiv (fun a _ => a) Qcplus 0%Qc Qcmult 1%Qc 0%Qc.

Lemma qc_lawful : lawful qc.
Proof.
  split; [|split].
  - split; [intros; apply Qcplus_comm|]. split; [intros; apply Qcplus_assoc|intros; apply Qcplus_0_l].
  - split; [intros; apply Qcmult_comm|]. split; [intros; apply Qcmult_assoc|intros; apply Qcmult_1_l].
  - intros a b H. apply Qc_is_canon. cbn. rewrite !Qred_correct. exact H.
Qed.
Lemma qc_exact B : 0 <= B < 2 ^ 31 -> ints_exact qc B.
Proof.
  intros HB. split; [auto|]. split; [intros a b H; apply Qc_is_canon; cbn; rewrite !Qred_correct; exact H|].
  split; [intros q; apply Qc_is_canon; cbn [qc n_neg n_const Qcopp Q2Qc this]; rewrite !Qred_correct; reflexivity|].
  intros x y _ _. repeat split; intros _; apply Qc_is_canon; cbn [qc n_add n_sub n_mul n_const Qcminus Qcplus Qcmult Qcopp Q2Qc this]; rewrite !Qred_correct.
  - rewrite inject_Z_plus. reflexivity.
  - unfold Z.sub. rewrite inject_Z_plus, inject_Z_opp. reflexivity.
  - rewrite inject_Z_mult. reflexivity.
Qed.

(* sin(a + b) * cos(b + a) *)
Definition trig : heap := heap_of
  [(LComm OMul, [1; 2]); (LFunc "sin", [3]); (LFunc "cos", [4]); (LComm OAdd, [5; 6]); (LComm OAdd, [7; 8]);
   (LVar "a", []); (LVar "b", []); (LVar "b", []); (LVar "a", [])].
Definition trig_arg (x y : string) : expr := E (LComm OAdd) [E (LVar x) []; E (LVar y) []].
Definition trig_e : expr := E (LComm OMul) [E (LFunc "sin") [trig_arg "a" "b"]; E (LFunc "cos") [trig_arg "b" "a"]].
Definition trig_e' : expr := E (LComm OMul) [E (LFunc "sin") [trig_arg "a" "b"]; E (LFunc "cos") [trig_arg "a" "b"]].

Lemma heap_of_nodes l : Forall (fun n => match fst n with
    | LConst _ | LCode _ | LVar _ | LIndex _ _ => snd n = []
    | LNeg => List.length (snd n) = 1%nat
    | LBin _ => List.length (snd n) = 2%nat
    | LComm _ | LFunc _ => True
    end) l -> nodes_ok (heap_of l).
Proof.
  intros F a lb ps H. unfold heap_of in H. destruct (a <? 0); [discriminate|]. apply nth_error_In in H.
  rewrite Forall_forall in F. exact (F _ H).
Qed.
Lemma heap_of_no_neg l : Forall (fun n => match fst n with LNeg => False | _ => True end) l -> no_clash (heap_of l).
Proof.
  intros F. left. intros a ps H. unfold heap_of in H. destruct (a <? 0); [discriminate|]. apply nth_error_In in H.
  rewrite Forall_forall in F. exact (F _ H).
Qed.

Lemma trig_ok : nodes_ok trig /\ no_clash trig /\ Forall2 (stands trig) [0] [trig_e] /\ lawful qc /\ ints_exact qc 100 /\
  Forall (printable qc 100) [trig_e'] /\
  match cse 9 trig [0] with
  | Ok (h', r') => r' = [0] /\ tree_of 5 h' 0 = Ok trig_e' /\
      match pair_all 9 h' r' with
      | Ok m => m 1 = Some 2 /\ m 2 = Some 1 /\
          print_part h' (fun _ => 1) (fun _ => 3) m 50 2 9 [("u"%string, 0)] =
          Ok [SSet 1 [TInt 0]; SSet 2 [TInt 0];
              SPair "sin" "cos" 1 2 [TLP; TLeaf (LVar "a"); TSp; TPlus; TSp; TLeaf (LVar "b"); TRP];
              SSet 3 [TTemp 1; TSp; TStar; TSp; TTemp 2]; SSet 4 [TTemp 3]; SWrite "u" 4]
      | _ => False
      end
  | _ => False
  end.
Proof.
  split; [apply heap_of_nodes; repeat constructor|]. split; [apply heap_of_no_neg; repeat constructor|].
  split; [constructor; [apply (tree_of_stands 5); reflexivity|constructor]|].
  split; [exact qc_lawful|]. split; [apply qc_exact; lia|].
  split; [|vm_compute; repeat split; reflexivity].
  constructor; [|constructor].
  assert (PA : printable qc 100 (trig_arg "a" "b")).
  { cbn [printable trig_arg fold_right]. split; [exact I|]. split; [repeat split|]. split; [cbn; lia|]. apply comm_small. repeat constructor. }
  unfold trig_e'. cbn [printable fold_right]. split; [exact I|]. split; [|split; [cbn; lia|apply comm_small; repeat constructor]].
  split; [split; [exact I|split; [discriminate|split; [exact PA|exact I]]]|].
  split; [split; [exact I|split; [discriminate|split; [exact PA|exact I]]]|exact I].
Qed.

(* sin(a - b) * cos(-b) *)
Definition clash : heap := heap_of
  [(LComm OMul, [1; 2]); (LFunc "sin", [3]); (LFunc "cos", [4]); (LBin OSub, [5; 6]); (LNeg, [7]); (LVar "a", []); (LVar "b", []); (LVar "b", [])].
Definition clash_e : expr :=
  E (LComm OMul) [E (LFunc "sin") [E (LBin OSub) [E (LVar "a") []; E (LVar "b") []]]; E (LFunc "cos") [E LNeg [E (LVar "b") []]]].
