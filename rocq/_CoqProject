-Q theories Verif
theories/Model/Base.v
theories/Model/Tables.v
theories/Model/BitTools.v
theories/Model/BitToolsSse.v
theories/Model/CompactVector.v
theories/Model/BitVector.v
theories/Model/VByte.v
theories/Model/Hash.v
theories/Model/MaxSize.v
theories/Model/StdTable.v
theories/Model/BonsaiRemap.v
theories/Model/PlainBonsaiTrie.v
theories/Model/PlainFkhashTrie.v
theories/Model/Heap.v
theories/Model/PlainNlm.v
theories/Model/CompactNlm.v
theories/Model/Map.v
theories/Model/PlainAliases.v
theories/Props/Spec.v
theories/Proofs/BaseP.v
theories/Proofs/BitToolsP.v
theories/Proofs/BitTools2P.v
theories/Proofs/SelectP.v
theories/Proofs/SseP.v
theories/Proofs/CompactVectorP.v
theories/Proofs/BitVectorP.v
theories/Proofs/VByteP.v
theories/Proofs/HashP.v
theories/Proofs/MaxSizeP.v
theories/Proofs/ProbeP.v
theories/Proofs/StdTableP.v
theories/Proofs/TrieRepP.v
theories/Proofs/RemapP.v
theories/Proofs/PlainBonsaiP.v
theories/Proofs/PlainFkP.v
theories/Proofs/StoreP.v
theories/Proofs/PairP.v
theories/Props/BitProps.v
theories/Props/MapSpec.v
theories/Model/Api.v
theories/Model/Aliases.v
theories/Model/Move.v
theories/Proofs/HeapP.v
theories/Proofs/KeyP.v
theories/Proofs/PlainNlmP.v
theories/Proofs/EntriesP.v
theories/Proofs/CompactBonsaiNlmP.v
theories/Proofs/CompactFkNlmP.v
theories/Proofs/PlainOpsP.v
theories/Proofs/PdtP.v
theories/Proofs/CountP.v
theories/Proofs/MapP.v
theories/Proofs/MapApiP.v
theories/Proofs/MapHistP.v
theories/Proofs/AliasP.v
theories/Proofs/SpecP.v
theories/Proofs/ReachP.v
theories/Model/Instances.v
theories/Props/HashSpec.v
theories/Props/InstSpec.v
theories/Props/ReachSpec.v
theories/Proofs/InstP.v
theories/Proofs/LimitP.v
theories/Proofs/NulP.v
theories/Proofs/FastP.v
theories/Props/MapProps.v
theories/Props/LimitProps.v
theories/Props/NlmSpec.v
theories/Proofs/NlmHistP.v
theories/Props/NlmProps.v
theories/Model/CompactHashTable.v
theories/Proofs/ChtLinP.v
theories/Proofs/ChtWordP.v
theories/Proofs/ChtP.v
theories/Proofs/ChtSetP.v
theories/Props/TableSpec.v
theories/Proofs/TableHistP.v
theories/Props/TableProps.v
theories/Model/DspTable.v
theories/Model/CompactBonsaiTrie.v
theories/Model/CompactFkhashTrie.v
theories/Proofs/DspP.v
theories/Proofs/CompactBonsaiP.v
theories/Proofs/CompactFkP.v
theories/Model/CompactAliases.v
theories/Proofs/CompactOpsP.v
theories/Props/TrieSpec.v
theories/Proofs/TrieHistP.v
theories/Proofs/TrieInstP.v
theories/Props/TrieProps.v
theories/Props/TrySpec.v
theories/Model/ApiTry.v
theories/Proofs/TryP.v
theories/Props/TryProps.v
theories/Props/InstProps.v
theories/Props/AlignSpec.v
theories/Proofs/AlignP.v
theories/Props/AlignProps.v
theories/Model/AllocBytes.v
theories/Proofs/SumP.v
theories/Props/AllocSpec.v
theories/Proofs/AllocP.v
theories/Props/AllocProps.v
theories/Props/OomSpec.v
theories/Model/Oom.v
theories/Proofs/OomP.v
theories/Props/OomProps.v
theories/Props/PresentSpec.v
theories/Proofs/PresentP.v
theories/Props/PresentProps.v
theories/Props/StringSpec.v
theories/Model/ApiString.v
theories/Proofs/StringP.v
theories/Props/StringProps.v
theories/Model/Destroy.v
theories/Proofs/OwnP.v
theories/Props/DestroySpec.v
theories/Props/DestroyProps.v
theories/Props/ShareSpec.v
theories/Proofs/ShareP.v
theories/Props/ShareProps.v
theories/Model/Stats.v
theories/Model/Histogram.v
theories/Proofs/LengthP.v
theories/Proofs/StatsP.v
theories/Proofs/HistP.v
theories/Proofs/StatsDefP.v
theories/Props/HistProps.v
theories/Props/StatsProps.v
theories/Props/LifeSpec.v
theories/Proofs/LifeP.v
theories/Props/LifeProps.v
theories/Model/Visits.v
theories/Proofs/VisitsP.v
theories/Proofs/VisitsPresentP.v
theories/Proofs/VisitsGrowP.v
theories/Props/VisitsProps.v
theories/Props/ProgSpec.v
theories/Model/Program.v
theories/Proofs/ProgP.v
theories/Props/ProgProps.v
theories/Props/InstMoreSpec.v
theories/Proofs/InstMoreP.v
theories/Props/InstMore.v
theories/Proofs/InstNulP.v
theories/Props/InstNul.v
theories/Model/Slots.v
theories/Proofs/SlotsP.v
theories/Props/SlotsProps.v
theories/Proofs/InstStepP.v
theories/Props/InstStep.v
theories/Proofs/InstAlignP.v
theories/Props/AlignInst.v
