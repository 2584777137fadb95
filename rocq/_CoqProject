-Q theories Verif
theories/Spec_Model.v
theories/Spec_Spec.v
theories/Spec_Proof.v
theories/Props_Spec.v
theories/Abs_Model.v
theories/Abs_Spec.v
theories/Abs_Proof.v
theories/Coord_Proof.v
theories/Coord_Live.v
theories/Coord_Example.v
theories/Props_Abs.v
theories/Disk_Model.v
theories/Journal_Model.v
theories/Journal_Spec.v
theories/Paged_Proof.v
theories/Linked_Proof.v
theories/Journal_Example.v
theories/Props_Journal.v
theories/AllocJournal_Model.v
theories/AllocJournal_Spec.v
theories/Likes_Proof.v
theories/Likes_Facts.v
theories/AllocJournal_Proof.v
theories/AllocJournal_Facts.v
theories/AllocJournal_Example.v
theories/Props_AllocJournal.v
theories/Betree_Model.v
theories/Betree_Spec.v
theories/Route_Proof.v
theories/Betree_Common.v
theories/Routed_Proof.v
theories/PagedBetree_Proof.v
theories/PivotBetree_Proof.v
theories/FilteredBetree_Proof.v
theories/Betree_Facts.v
theories/Betree_Example.v
theories/Props_Betree.v
theories/LinkedBetree_Model.v
theories/LinkedBetree_Spec.v
theories/LinkedBetree_Proof.v
theories/LinkedBetree_Facts.v
theories/LinkedBetree_Example.v
theories/Props_LinkedBetree.v
theories/System_Model.v
theories/System_Spec.v
theories/AsyncDisk_Proof.v
theories/System_Proof.v
theories/System_Example.v
theories/Props_System.v
theories/Exec_Model.v
theories/Exec_Spec.v
theories/Exec_Proof.v
theories/Exec_Example.v
theories/ExecPage_Proof.v
theories/ExecPage_Example.v
theories/Props_Exec.v
theories/Cache_Model.v
theories/Cache_Spec.v
theories/Cache_Proof.v
theories/Cache_Example.v
theories/Props_Cache.v
theories/Cache_Live.v
theories/CacheLive_Example.v
theories/Props_CacheLive.v
theories/Alloc_Model.v
theories/Alloc_Spec.v
theories/Alloc_Proof.v
theories/Props_Alloc.v
theories/Bank_Model.v
theories/Bank_Spec.v
theories/Bank_Proof.v
theories/BankExec_Proof.v
theories/Bank_Example.v
theories/Props_Bank.v
theories/Marshal_Model.v
theories/Marshal_Spec.v
theories/Marshal_Proof.v
theories/MarshalSeq_Proof.v
theories/MarshalResizable_Proof.v
theories/MarshalVariable_Proof.v
theories/MarshalKV_Proof.v
theories/MarshalClient_Spec.v
theories/MarshalClient_Proof.v
theories/Marshal_Example.v
theories/Props_Marshal.v
theories/Branch_Model.v
theories/Branch_Spec.v
theories/Branch_Proof.v
theories/BranchPages_Proof.v
theories/BranchBuild_Proof.v
theories/BranchProps_Proof.v
theories/Branch_Example.v
theories/Props_Branch.v
theories/LikesBetree_Model.v
theories/LikesBetree_Spec.v
theories/LikesTree_Proof.v
theories/LikesOps_Proof.v
theories/LikesBetree_Proof.v
theories/LikesBetree_Facts.v
theories/LikesBetree_Example.v
theories/Props_LikesBetree.v
theories/CachedJournal_Model.v
theories/CachedJournal_Spec.v
theories/CachedJournal_Proof.v
theories/CachedSys_Proof.v
theories/CachedFacts_Proof.v
theories/CachedJournal_Example.v
theories/Props_CachedJournal.v
theories/CachedLive_Proof.v
theories/CachedLive_Example.v
theories/Props_CachedLive.v
theories/CrashJournal_Model.v
theories/CrashJournal_Spec.v
theories/CrashJournal_Proof.v
theories/CrashJournal_Facts.v
theories/CrashJournal_Durable.v
theories/CrashJournal_Space.v
theories/JournalLive_Spec.v
theories/JournalLive_Proof.v
theories/JournalLive_Facts.v
theories/JournalLive_Example.v
theories/Props_JournalLive.v
theories/CrashJournal_Example.v
theories/Props_CrashJournal.v
theories/BranchBetree_Model.v
theories/BranchBuffer_Proof.v
theories/BranchBetree_Spec.v
theories/BranchSkel_Proof.v
theories/BranchForest_Proof.v
theories/BranchCompact_Proof.v
theories/BranchBetree_Proof.v
theories/BranchSteps_Proof.v
theories/BranchOps_Proof.v
theories/BranchFlush_Proof.v
theories/BranchBetree_Facts.v
theories/BranchAnswers_Facts.v
theories/BranchBetree_Example.v
theories/Props_BranchBetree.v
theories/Token_Model.v
theories/Serve_Model.v
theories/Serve_Spec.v
theories/Token_Spec.v
theories/Token_Proof.v
theories/Token_Example.v
theories/Props_Token.v
theories/Serve_Proof.v
theories/Serve_Example.v
theories/Store_Model.v
theories/Store_Spec.v
theories/Tree_Live.v
theories/Store_Proof.v
theories/Store_Boot.v
theories/Store_Example.v
theories/Props_Serve.v
theories/Props_Store.v
theories/StoreLive_Spec.v
theories/Store_Live.v
theories/StoreLive_Example.v
theories/Props_StoreLive.v
theories/Store_Answer.v
theories/StoreAnswer_Example.v
theories/Props_StoreAnswer.v
theories/BranchLive_Spec.v
theories/BranchLive_Proof.v
theories/BranchFlow_Proof.v
theories/BranchMerge_Proof.v
theories/BranchLive_Example.v
theories/BranchMerge_Example.v
theories/Props_BranchLive.v
theories/JournalSpace_Spec.v
theories/JournalSpace_Proof.v
theories/JournalShare_Proof.v
theories/JournalSpace_Example.v
theories/Props_JournalSpace.v
theories/TreeFlow_Spec.v
theories/TreeFlow_Proof.v
theories/TreeShape_Proof.v
theories/TreeSettle_Proof.v
theories/TreeFlow_Example.v
theories/BranchDrain_Proof.v
theories/BranchDrain_Example.v
theories/Props_TreeFlow.v
theories/SystemLive_Spec.v
theories/SystemLive_Proof.v
theories/SystemLive_Example.v
theories/ExecLive_Proof.v
theories/Props_SystemLive.v
theories/BranchRestart_Proof.v
theories/LikesRestart_Proof.v
theories/BranchRestart_Example.v
theories/Props_BranchRestart.v
theories/BranchStore_Model.v
theories/BranchStore_Spec.v
theories/BranchStore_Proof.v
theories/BranchStore_Example.v
theories/Props_BranchStore.v
