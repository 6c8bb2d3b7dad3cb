(** Vocabulary of the properties of placeholders. *)
From Coq Require Import List Arith NArith ZArith Bool PeanoNat.
From Verif Require Import ListBase TensorModel HolderModel.
Import ListNotations.

(** the number of nodes constructed *)
Fixpoint made {T} (es : list (event (T := T))) : Z :=
  match es with
  | [] => 0
  | e :: es => (match e with Other | New _ => 1 | _ => 0 end + made es)%Z
  end.

(** the identifier of an object *)
Definition ident {T} (w : @world T) (i : nat) : option Z := option_map id_ (nth_error (handles w) i).

(** running [es] from [w] never binds or resets the placeholder with identifier [id], through whichever object, nor ends the session *)
Fixpoint leaves_alone {T} (t_shape : T -> list N) (none : T) (id : Z) (w : @world T) (es : list event) : Prop :=
  match es with
  | [] => True
  | e :: es =>
      match e with
      | Rebind i _ | Bind i _ | Reset i => ident w i <> Some id
      | Close => False
      | _ => True
      end /\
      match step t_shape none w e with Ok w' => leaves_alone t_shape none id w' es | _ => True end
  end.

(** the identifiers of the placeholders bound through session::bind since the session began, after [es] run from [w] *)
Fixpoint bound {T} (t_shape : T -> list N) (none : T) (so_far : list Z) (w : @world T) (es : list event) : list Z :=
  match es with
  | [] => so_far
  | e :: es =>
      let so_far := match e with
                    | Bind i _ => match ident w i with Some id => so_far ++ [id] | None => so_far end
                    | Close => []
                    | _ => so_far
                    end in
      match step t_shape none w e with Ok w' => bound t_shape none so_far w' es | _ => so_far end
  end.
