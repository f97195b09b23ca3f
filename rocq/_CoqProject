-Q theories Verif
theories/JBase.v
theories/JLemmas.v
theories/JBits.v
theories/Num_Model.v
theories/Num_Spec.v
theories/Num_Proofs.v
theories/Num_Props.v
theories/Codec_Model.v
theories/Codec_Spec.v
theories/Codec_Proofs.v
theories/Codec_Props.v
theories/Types_Model.v
theories/Types_Spec.v
theories/Types_Proofs.v
theories/Types_Props.v
theories/Snowflake_Model.v
theories/Snowflake_Spec.v
theories/Snowflake_Proofs.v
theories/Snowflake_Props.v
theories/JHist.v
theories/Grow_Lemmas.v
theories/Vector_Model.v
theories/Vector_Spec.v
theories/Vector_Proofs.v
theories/Vector_Props.v
theories/Store_Model.v
theories/Store_Spec.v
theories/Store_Proofs.v
theories/Store_Props.v
theories/Deque_Model.v
theories/Deque_Spec.v
theories/Deque_Proofs.v
theories/Deque_Props.v
theories/Hydra_Model.v
theories/Hydra_Spec.v
theories/Hydra_Proofs.v
theories/Hydra_Props.v
theories/Heap_Model.v
theories/Heap_Spec.v
theories/Heap_Order.v
theories/Heap_Proofs.v
theories/Heap_Main.v
theories/Heap_Large.v
theories/Heap_Ties.v
theories/Heap_Props.v
theories/Hash_Model.v
theories/Hash_Spec.v
theories/Hash_Tab.v
theories/Hash_Proofs.v
theories/Hash_Step.v
theories/Hash_Iter.v
theories/Hash_Copy.v
theories/Hash_Calls.v
theories/Hash_Mods.v
theories/Hash_Main.v
theories/Hash_More.v
theories/Hash_Props.v
theories/Bi_Model.v
theories/Bi_Spec.v
theories/Bi_Side.v
theories/Bi_Lists.v
theories/Bi_Proofs.v
theories/Bi_Step.v
theories/Bi_Total.v
theories/Bi_Main.v
theories/Bi_Fits.v
theories/Bi_Room.v
theories/Bi_More.v
theories/Bi_Props.v
theories/Sort_Model.v
theories/Sort_Spec.v
theories/Sort_Safe.v
theories/Sort_Sorted.v
theories/Sort_Range.v
theories/Sort_Any.v
theories/Sort_Few.v
theories/Sort_Ties.v
theories/Sort_Props.v
theories/Float_Model.v
theories/Float_Spec.v
theories/Float_Proofs.v
theories/Float_More.v
theories/Float_Props.v
theories/Convert_Model.v
theories/Convert_Spec.v
theories/Convert_Proofs.v
theories/Convert_More.v
theories/Calendar_Props.v
theories/Convert_Props.v
theories/Keys_Model.v
theories/Keys_Spec.v
theories/Keys_Props.v
theories/App_Model.v
theories/App_Spec.v
theories/App_Timeout.v
theories/App_Link.v
theories/App_Index.v
theories/App_School.v
theories/App_Props.v
theories/Table_Model.v
theories/Table_Spec.v
theories/Table_Proofs.v
theories/Table_Props.v
theories/Session_Model.v
theories/Session_Spec.v
theories/Session_Proofs.v
theories/Session_Props.v
theories/Array_Spec.v
theories/Array_Props.v
theories/Keep.v
theories/Cap_Spec.v
theories/Hash_Cap.v
theories/Heap_Cap.v
theories/Cap_Props.v
theories/HeapC_Model.v
theories/HeapC_Spec.v
theories/HeapC_Proofs.v
theories/HeapC_Calls.v
theories/HeapC_Main.v
theories/HeapC_Sim.v
theories/HeapC_Props.v
theories/HashC_Model.v
theories/HashC_Spec.v
theories/HashC_Ghost.v
theories/HashC_Quiet.v
theories/HashC_Calls.v
theories/HashC_Rebuild.v
theories/HashC_Add.v
theories/HashC_Main.v
theories/HashC_Agree.v
theories/HashC_Track.v
theories/HashC_Props.v
theories/HydraI_Model.v
theories/HydraI_Spec.v
theories/HydraI_Proofs.v
theories/HydraI_Props.v
theories/Iters_Model.v
theories/Iters_Spec.v
theories/Iters_Proofs.v
theories/Iters_Props.v
theories/Each_Model.v
theories/Each_Spec.v
theories/Each_Proofs.v
theories/Each_Props.v
theories/Loops_Model.v
theories/Loops_Spec.v
theories/Loops_Proofs.v
theories/Loops_Props.v
theories/MapI_Model.v
theories/MapI_Spec.v
theories/MapI_Proofs.v
theories/MapI_Props.v
theories/HeapE_Model.v
theories/HeapE_Spec.v
theories/HeapE_Proofs.v
theories/HeapE_Props.v
theories/BiE_Model.v
theories/BiE_Spec.v
theories/BiE_Proofs.v
theories/BiE_Props.v
theories/Held_Spec.v
theories/HeldV_Proofs.v
theories/HeldD_Proofs.v
theories/HeldY_Proofs.v
theories/HeldQ_Props.v
theories/HeldH_Spec.v
theories/HeldH_Proofs.v
theories/HeldH_Props.v
theories/HeldM_Spec.v
theories/HeldM_Proofs.v
theories/HeldM_Props.v
theories/Amort_Spec.v
theories/Amort_Proofs.v
theories/Amort_Hydra.v
theories/Amort_Heap.v
theories/Amort_Hash.v
theories/Amort_Store.v
theories/Amort_Props.v
theories/Same_Model.v
theories/Same_Proofs.v
theories/Same_Props.v
theories/Dense_Proofs.v
theories/Dense_Props.v
theories/Look_Props.v
theories/Record_Spec.v
theories/Record_Props.v
theories/Config_Hash.v
theories/Config_Props.v
theories/Config_Heap.v
theories/Order_Hash.v
theories/Order_Props.v
theories/Throws_Hash.v
theories/Throws_Heap.v
theories/Sched_Model.v
theories/Sched_Spec.v
theories/Sched_Hash.v
theories/Sched_Heap.v
theories/Sched_Props.v
theories/Keyq_Model.v
theories/Keyq_Spec.v
theories/Keyq_Set.v
theories/Keyq_Deque.v
theories/Keyq_Props.v
theories/Bfs_Model.v
theories/Bfs_Spec.v
theories/Bfs_Hash.v
theories/Bfs_Deque.v
theories/Bfs_Proofs.v
theories/Bfs_Props.v
theories/Dij_Model.v
theories/Dij_Spec.v
theories/Dij_Proofs.v
theories/Dij_Props.v
theories/Merge_Model.v
theories/Merge_Spec.v
theories/Merge_Proofs.v
theories/Merge_Props.v
theories/Topk_Model.v
theories/Topk_Props.v
theories/Half_Props.v
theories/Spread_Props.v
